(** * Fluid.py: White-Dutta-Ode, packaged for the property theorems. *)
From Verif Require Import Fl Cx M_Utils M_EM M_Anis M_Fluid L_EM8 Spec Spec2 Spec9 RealLemmas L_Utils L_Anis L_Fluid1 L_Fluid4 L_Fluid5 L_Fluid6 L_Fluid7 L_Fluid9 L_Fluid10.
Open Scope R_scope.

Section W.
Variables (m : mode) (Kd Gd K0 phi r0 rf1 rf2 Kf1 Kf2 eta1 eta2 kap a sg : R).
Let W f := Fluid_White_Dutta_Ode m (Fin Kd) (Fin Gd) (Fin K0) (Fin phi) (Fin r0) (Fin rf1) (Fin rf2) (Fin Kf1) (Fin Kf2)
    (Fin eta1) (Fin eta2) (Fin kap) (Fin a) (Fin sg) (Fin f).
Let G Kf := Fluid_Gassmann m (Fin Kd) (Fin Gd) (Fin K0) (Fin Kf) (Fin phi).
Let rho := white_density phi r0 rf1 rf2 sg.
Hypothesis H : white_inputs Kd Gd K0 phi r0 rf1 rf2 Kf1 Kf2 eta1 eta2 kap a sg.

Lemma hill_pack : exists K1 K2 Kh, G Kf1 = Ret (Fin K1, Fin Gd) /\ G Kf2 = Ret (Fin K2, Fin Gd) /\ is_hill K1 K2 Gd sg Kh /\ Kh = wKinf Kd Gd K0 phi Kf1 Kf2 sg.
Proof.
  destruct H as (H0 & H1 & H2 & H3 & H4 & H5 & H6 & H7 & H8 & H9 & H10 & H11).
  eexists _, _, _. split; [apply Gass; lra|]. split; [apply Gass; lra|]. split; [|reflexivity].
  destruct (hill_identity Kd Gd K0 phi Kf1 Kf2 sg) as (A & B); auto. split; [exact B|]. rewrite <- A. field.
  assert (0 <= 4/3 * Gd) by lra. lra.
Qed.
Lemma white_pack f : 0 < f -> exists V aw KR KI K1 K2 Kh, W f = Ret (Fin V, Fin aw, CFin KR KI) /\
  G Kf1 = Ret (Fin K1, Fin Gd) /\ G Kf2 = Ret (Fin K2, Fin Gd) /\ is_hill K1 K2 Gd sg Kh /\ 0 < V /\ 0 <= aw /\ 0 < KR <= Kh /\ 0 <= KI /\
  cmul (cmul (CFin (1 / V) (- aw / (2 * PI * f))) (CFin (1 / V) (- aw / (2 * PI * f)))) (CFin (KR + 4/3 * Gd) KI) = CFin rho 0.
Proof.
  intros Hf. destruct hill_pack as (K1 & K2 & Kh & A1 & A2 & A3 & A4).
  destruct H as (H0 & H1 & H2 & H3 & H4 & H5 & H6 & H7 & H8 & H9 & H10 & H11).
  destruct (White_two m Kd Gd K0 phi r0 rf1 rf2 Kf1 Kf2 eta1 eta2 kap a sg) with (f := f) as (B1 & B2 & B3 & B4); auto.
  destruct (wK_pos Kd Gd K0 phi Kf1 Kf2 eta1 eta2 kap a sg) with (f := f) as (C1 & C2); auto.
  do 4 eexists. exists K1, K2, Kh. split; [exact B1|]. split; [exact A1|]. split; [exact A2|]. split; [exact A3|]. split; [exact B2|]. split; [exact B3|]. rewrite A4. split; [exact C1|]. split; [exact C2|exact B4].
Qed.
Lemma lim_use (F : R -> R) l : limit1_in F pos l 0 -> forall eps, 0 < eps -> exists d, 0 < d /\ forall x, 0 < x -> x < d -> Rabs (F x - l) < eps.
Proof.
  intros L eps He. destruct (L eps He) as (d & Hd & L'). exists d. split; [exact Hd|]. intros x H1 H2. apply (L' x). split; [exact H1|].
  change (Rabs (x - 0) < d). rewrite Rminus_0_r, Rabs_right by lra. exact H2.
Qed.
Lemma white_low : let Kw := 1 / (sg / Kf1 + (1 - sg) / Kf2) in exists Ks, G Kw = Ret (Fin Ks, Fin Gd) /\
  forall eps, 0 < eps -> exists f0, 0 < f0 /\ forall f, 0 < f < f0 -> exists V aw KR KI, W f = Ret (Fin V, Fin aw, CFin KR KI) /\
  Rabs (KR - Ks) < eps /\ Rabs KI < eps /\ Rabs (V - sqrt ((Ks + 4/3 * Gd) / rho)) < eps /\ Rabs aw < eps.
Proof.
  intros Kw. destruct H as (H0 & H1 & H2 & H3 & H4 & H5 & H6 & H7 & H8 & H9 & H10 & H11).
  assert (S1 : 0 < sg / Kf1) by (apply Rdiv_lt_0_compat; lra). assert (S2 : 0 < (1 - sg) / Kf2) by (apply Rdiv_lt_0_compat; lra).
  assert (KW : 0 < Kw < K0).
  { unfold Kw. split; [apply Rdiv_lt_0_compat; lra|]. apply div_lt_iff; [lra|].
    assert (sg < K0 * (sg / Kf1)) by (replace (K0 * (sg / Kf1)) with (K0 * sg / Kf1) by (field; lra); apply lt_div_iff; nra).
    assert (1 - sg < K0 * ((1 - sg) / Kf2)) by (replace (K0 * ((1 - sg) / Kf2)) with (K0 * (1 - sg) / Kf2) by (field; lra); apply lt_div_iff; nra). lra. }
  set (Ks := wKlow Kd K0 phi Kf1 Kf2 sg).
  assert (E : gK Kd K0 Kw phi = Ks). { unfold Ks, wKlow, gK. do 2 f_equal. unfold gB, Kw. field. repeat split; try lra. replace (sg * Kf2 + (1 - sg) * Kf1) with ((sg / Kf1 + (1 - sg) / Kf2) * (Kf1 * Kf2)) by (field; lra). apply Rmult_integral_contrapositive_currified; [lra|]. nra. }
  exists Ks. split; [rewrite <- E; apply Gass; lra|].
  destruct (lim_wK_low Kd Gd K0 phi Kf1 Kf2 eta1 eta2 kap a sg) as (L1 & L2); auto. fold Ks in L1.
  assert (KP : 0 < Ks) by (rewrite <- E; destruct (gK_range Kd K0 Kw phi H0 ltac:(lra) ltac:(lra) H5); lra).
  destruct (lim_V _ _ _ _ Gd rho _ L1 L2) as (L3 & L4); [lra|exact H8|].
  assert (L5 : limit1_in (waw Kd Gd K0 phi r0 rf1 rf2 Kf1 Kf2 eta1 eta2 kap a sg) pos 0 0).
  { unfold waw. assert (0 < sqrt ((Ks + 4/3 * Gd) / rho)) by (apply sqrt_lt_R0, Rdiv_lt_0_compat; [lra|exact H8]).
    eapply lim_eq; [apply limit_mul; [apply lim_div; [apply limit_mul; [apply lim_cst|apply pos_id]|exact L3|lra]|exact L4]|unfold Rdiv; ring]. }
  intros eps He. destruct (lim_use _ _ L1 eps He) as (d1 & D1 & M1). destruct (lim_use _ _ L2 eps He) as (d2 & D2 & M2). destruct (lim_use _ _ L3 eps He) as (d3 & D3 & M3). destruct (lim_use _ _ L5 eps He) as (d5 & D5 & M5).
  exists (Rmin (Rmin d1 d2) (Rmin d3 d5)). split; [repeat apply Rmin_glb_lt; auto|]. intros f (Hf & Hd).
  assert (X1 := Rmin_l (Rmin d1 d2) (Rmin d3 d5)). assert (X2 := Rmin_r (Rmin d1 d2) (Rmin d3 d5)). assert (X3 := Rmin_l d1 d2). assert (X4 := Rmin_r d1 d2). assert (X5 := Rmin_l d3 d5). assert (X6 := Rmin_r d3 d5).
  destruct (White_two m Kd Gd K0 phi r0 rf1 rf2 Kf1 Kf2 eta1 eta2 kap a sg) with (f := f) as (B1 & _); auto.
  do 4 eexists. split; [exact B1|]. specialize (M2 f Hf ltac:(lra)). specialize (M5 f Hf ltac:(lra)). rewrite Rminus_0_r in M2, M5.
  split; [apply M1; lra|]. split; [exact M2|]. split; [|exact M5]. apply M3; lra.
Qed.
Lemma white_high : exists K1 K2 Kh, G Kf1 = Ret (Fin K1, Fin Gd) /\ G Kf2 = Ret (Fin K2, Fin Gd) /\ is_hill K1 K2 Gd sg Kh /\
  forall eps, 0 < eps -> exists f0, 0 < f0 /\ forall f, f0 < f -> exists V aw KR KI, W f = Ret (Fin V, Fin aw, CFin KR KI) /\
  Rabs (KR - Kh) < eps /\ Rabs KI < eps /\ Rabs (V - sqrt ((Kh + 4/3 * Gd) / rho)) < eps /\ Rabs (aw * V / f) < eps.
Proof.
  destruct hill_pack as (K1 & K2 & Kh & A1 & A2 & A3 & A4). exists K1, K2, Kh. split; [exact A1|]. split; [exact A2|]. split; [exact A3|].
  destruct A3 as (KP & _).
  destruct H as (H0 & H1 & H2 & H3 & H4 & H5 & H6 & H7 & H8 & H9 & H10 & H11).
  destruct (lim_wK_high Kd Gd K0 phi Kf1 Kf2 eta1 eta2 kap a sg) as (L1 & L2); auto. rewrite <- A4 in L1.
  destruct (lim_V _ _ _ _ Gd rho _ L1 L2) as (L3 & L4); [lra|exact H8|].
  assert (P := PI_RGT_0). intros eps He. destruct (lim_use _ _ L1 eps He) as (d1 & D1 & M1). destruct (lim_use _ _ L2 eps He) as (d2 & D2 & M2). destruct (lim_use _ _ L3 eps He) as (d3 & D3 & M3).
  destruct (lim_use _ _ L4 (eps / (2 * PI)) ltac:(apply Rdiv_lt_0_compat; lra)) as (d5 & D5 & M5).
  set (d := Rmin (Rmin d1 d2) (Rmin d3 d5)). assert (Dp : 0 < d) by (unfold d; repeat apply Rmin_glb_lt; auto).
  assert (X1 := Rmin_l (Rmin d1 d2) (Rmin d3 d5)). assert (X2 := Rmin_r (Rmin d1 d2) (Rmin d3 d5)). assert (X3 := Rmin_l d1 d2). assert (X4 := Rmin_r d1 d2). assert (X5 := Rmin_l d3 d5). assert (X6 := Rmin_r d3 d5). fold d in X1, X2.
  exists (1 / d). split; [apply Rdiv_lt_0_compat; lra|]. intros f Hf.
  assert (0 < 1 / d) by (apply Rdiv_lt_0_compat; lra). assert (Fp : 0 < f) by lra.
  assert (U : 0 < 1 / f) by (apply Rdiv_lt_0_compat; lra). assert (Ud : 1 / f < d) by (apply div_lt_iff; [auto|]; apply div_lt_iff in Hf; [|auto]; lra).
  destruct (White_two m Kd Gd K0 phi r0 rf1 rf2 Kf1 Kf2 eta1 eta2 kap a sg) with (f := f) as (B1 & B2 & _); auto.
  do 4 eexists. split; [exact B1|].
  assert (FF : 1 / (1 / f) = f) by (field; lra).
  specialize (M1 _ U ltac:(lra)). specialize (M2 _ U ltac:(lra)). specialize (M3 _ U ltac:(lra)). specialize (M5 _ U ltac:(lra)). cbv beta in M1, M2, M3, M5. rewrite !FF in M1, M2, M3, M5. rewrite Rminus_0_r in M2, M5.
  split; [exact M1|]. split; [exact M2|]. split; [exact M3|]. unfold waw. set (V := wV _ _ _ _ _ _ _ _ _ _ _ _ _ _ _) in *. set (t := tan _) in *.
  replace (2 * PI * f / V * t * V / f) with (2 * PI * t) by (field; lra). rewrite Rabs_mult, (Rabs_right (2 * PI)) by lra.
  apply Rlt_le_trans with (2 * PI * (eps / (2 * PI))); [apply Rmult_lt_compat_l; lra|right; field; lra].
Qed.
End W.

(** ** Squirt against the crack decomposition *)
Ltac idx i := destruct i as [|[|[|i]]]; [| | |exfalso; lia].
Lemma ti_decomp d0 d1 d2 d3 d4 g0 g1 g2 g3 g4 al : let F1 := g0 + g1 + g2 in let F3 := 2 * g2 + g3 in
  crack_decomposition (ti4 d0 d1 d2 d3 d4) (ti4 g0 g1 g2 g3 g4) al <->
  4 * al = 2 * d0 + d3 + (d0 - d1) + 4 * d4 - 1 /\ d0 = (1 - 4 * al) * g0 + 4 * al * F1 /\ d1 = (1 - 4 * al) * g1 /\ d2 = (1 - 4 * al) * g2 /\
  d3 = (1 - 4 * al) * g3 + 4 * al * F3 /\ d4 = (1 - 4 * al) * g4 + al * (F1 + F3).
Proof.
  intros F1 F3. unfold crack_decomposition. cbv zeta. split.
  - intros (A & B). assert (X0 := B 0%nat 0%nat 0%nat 0%nat ltac:(lia) ltac:(lia) ltac:(lia) ltac:(lia)). assert (X1 := B 0%nat 0%nat 1%nat 1%nat ltac:(lia) ltac:(lia) ltac:(lia) ltac:(lia)).
    assert (X2 := B 0%nat 0%nat 2%nat 2%nat ltac:(lia) ltac:(lia) ltac:(lia) ltac:(lia)). assert (X3 := B 2%nat 2%nat 2%nat 2%nat ltac:(lia) ltac:(lia) ltac:(lia) ltac:(lia)). assert (X4 := B 0%nat 2%nat 0%nat 2%nat ltac:(lia) ltac:(lia) ltac:(lia) ltac:(lia)).
    cbn [ti4 del Nat.eqb andb orb] in A, X0, X1, X2, X3, X4. unfold F1, F3. repeat split; lra.
  - intros (A & B0 & B1 & B2 & B3 & B4). split; [cbn [ti4 del Nat.eqb andb orb]; lra|].
    intros i j k l Hi Hj Hk Hl. unfold F1, F3 in *. idx i; idx j; idx k; idx l; cbn [ti4 del Nat.eqb andb orb]; lra.
Qed.
Section SqT.
Variables (m : mode) (s0 s1 s2 s3 s4 h0 h1 h2 h3 h4 : R).
Let V := vol5 (s0 - h0) (s1 - h1) (s2 - h2) (s3 - h3).
Let d0 := s0 - h0. Let d1 := s1 - h1. Let d2 := s2 - h2. Let d3 := s3 - h3. Let d4 := s4 - h4.
Hypotheses (HV : V <> 0) (HT : 2 * V <> 2 * d0 + d3 + 4 * d4 + 4 * (d0 - d1)).
Let Q w := Fluid_Squirt_anisotropic m (Fin s0, Fin s1, Fin s2, Fin s3, Fin s4) (Fin h0, Fin h1, Fin h2, Fin h3, Fin h4) = Ret w.
Lemma Squirt_theory : exists w0 w1 w2 w3 w4, Q [Fin w0; Fin w1; Fin w2; Fin w3; Fin w4] /\
  let g0 := (s0 - w0) / V in let g1 := (s1 - w1) / V in let g2 := (s2 - w2) / V in let g3 := (s3 - w3) / V in let g4 := (s4 - w4) / V in
  (exists al, 4 * al = (2 * d0 + d3 + 4 * d4 + (d0 - d1)) / V - 1 + 3 * (d0 - d1) / V /\ d0 / V = (1 - 4 * al) * g0 + 4 * al * (g0 + g1 + g2) /\
     d1 / V = (1 - 4 * al) * g1 /\ d2 / V = (1 - 4 * al) * g2 /\ d3 / V = (1 - 4 * al) * g3 + 4 * al * (2 * g2 + g3) /\
     d4 / V = (1 - 4 * al) * g4 + (d0 / V + d2 / V) / 4 - (1 - 4 * al) * (g0 + g3) / 4) /\
  (d1 <> 0 -> ((exists al, crack_decomposition (ti4 (d0 / V) (d1 / V) (d2 / V) (d3 / V) (d4 / V)) (ti4 g0 g1 g2 g3 g4) al) <-> d0 = d1 /\ d2 = d3)) /\
  (d1 <> 0 -> (exists al, crack_decomposition (ti4 (d0 / V) (d1 / V) (d2 / V) (d3 / V) (d4 / V / 4)) (ti4 g0 g1 g2 g3 (g4 / 4)) al) -> d4 + (d0 - d1) = 0).
Proof.
  assert (HT' : sqT s0 s1 s2 s3 s4 h0 h1 h2 h3 h4 <> 0).
  { unfold sqT. fold V d0 d1 d3 d4. intros E. apply HT. apply (f_equal (fun x => x * V)) in E. unfold Rdiv in E.
    rewrite Rmult_minus_distr_r, Rmult_assoc, Rinv_l, Rmult_0_l in E by exact HV. lra. }
  do 5 eexists. split; [apply Squirt_eval; [exact HV|exact HT']|].
  set (T := sqT s0 s1 s2 s3 s4 h0 h1 h2 h3 h4) in *. unfold sqalpha. fold V T d0 d1 d2 d3 d4.
  assert (ET : T = 2 - (2 * d0 + d3 + 4 * d4 + 4 * (d0 - d1)) / V) by reflexivity.
  assert (EV : 2 * d0 + 2 * d1 + 4 * d2 + d3 = V) by reflexivity.
  clearbody T. clearbody V.
  set (D0 := d0 / V) in *. set (D1 := d1 / V) in *. set (D2 := d2 / V) in *. set (D3 := d3 / V) in *. set (D4 := d4 / V) in *.
  set (al := (1 - T) / 4). cbv zeta.
  set (G0 := D0 - 4 * al / T * (D1 + D2)). set (G1 := D1 / T). set (G2 := D2 / T). set (G3 := D3 - 8 * al * D2 / T). set (G4 := D4 / T - (D0 + D2) / (4 * T) + (G0 + G3) / 4).
  assert (W : forall s x, (s - (s - V * x)) / V = x) by (intros; field; exact HV). rewrite !W.
  assert (ET' : T = 2 - (2 * D0 + D3 + 4 * D4 + 4 * (D0 - D1))) by (rewrite ET; unfold D0, D1, D3, D4; field; exact HV).
  assert (I : forall x, d0 = x * V -> D0 = x) by (intros x E; unfold D0; rewrite E; field; exact HV).
  assert (L1 : D1 = 0 -> d1 = 0) by (intros E; transitivity (D1 * V); [unfold D1; field; exact HV|rewrite E; ring]).
  assert (L0 : D0 = D1 <-> d0 = d1). { split; intros E; [|unfold D0, D1; rewrite E; reflexivity]. transitivity (D0 * V); [unfold D0; field; exact HV|rewrite E; unfold D1; field; exact HV]. }
  assert (L2 : D2 = D3 <-> d2 = d3). { split; intros E; [|unfold D2, D3; rewrite E; reflexivity]. transitivity (D2 * V); [unfold D2; field; exact HV|rewrite E; unfold D3; field; exact HV]. }
  assert (E0 : D0 = T * G0 + 4 * al * (G0 + G1 + G2)) by (unfold G0, G1, G2, al; field; exact HT').
  assert (E1 : D1 = T * G1) by (unfold G1; field; exact HT'). assert (E2 : D2 = T * G2) by (unfold G2; field; exact HT').
  assert (E3 : D3 = T * G3 + 4 * al * (2 * G2 + G3)) by (unfold G3, G2, al; field; exact HT').
  assert (EA : 1 - 4 * al = T) by (unfold al; field).
  assert (E4 : T * G4 = D4 - al * (G0 + G1 + G2 + (2 * G2 + G3)) + (D3 - D2) / 4).
  { transitivity (D4 - (D0 + D2) / 4 + (T * G0 + T * G3) / 4); [unfold G4; field; exact HT'|]. lra. }
  split; [|split].
  - exists al. rewrite EA. split; [|do 4 (split; [assumption|]); unfold G4; field; exact HT'].
    replace (4 * al) with (1 - T) by lra. rewrite ET. field. exact HV.
  - intros N1. split.
    + intros (al' & X). apply ti_decomp in X. cbv zeta in X. destruct X as (A & B0 & B1 & B2 & B3 & B4).
      assert (NG : G1 <> 0) by (intros Z; apply N1, L1; rewrite E1, Z; ring).
      assert (Q1 : 1 - 4 * al' = T) by (apply Rmult_eq_reg_r with G1; [lra|exact NG]).
      assert (al' = al) by lra. subst al'. split; [apply L0; lra|apply L2; rewrite EA in B4; lra].
    + intros (H1 & H2). apply L0 in H1. apply L2 in H2. exists al. apply ti_decomp. cbv zeta. rewrite EA. repeat split; try assumption; lra.
  - intros N1 (al' & X). apply ti_decomp in X. cbv zeta in X. destruct X as (A & B0 & B1 & B2 & B3 & B4).
    assert (NG : G1 <> 0) by (intros Z; apply N1, L1; rewrite E1, Z; ring).
    assert (Q1 : 1 - 4 * al' = T) by (apply Rmult_eq_reg_r with G1; [lra|exact NG]).
    assert (Z : D4 + (D0 - D1) = 0) by lra. transitivity ((D4 + (D0 - D1)) * V); [unfold D4, D0, D1; field; exact HV|rewrite Z; ring].
Qed.
End SqT.
