(** * Fluid.py: Biot dispersion, Mavko-Jizba, anisotropic squirt, White-Dutta-Ode. *)
From Verif Require Import Fl Cx M_Utils M_EM M_Anis M_Fluid Spec Spec2 Spec9 RealLemmas L_Utils L_Anis L_Fluid1 L_Fluid2.
Open Scope R_scope.

(** ** Complex helpers *)
Lemma cdiv_inv x y a b : cdiv x y = CFin a b -> exists x1 x2 y1 y2, x = CFin x1 x2 /\ y = CFin y1 y2 /\ y1^2 + y2^2 <> 0 /\
  x1 = a * y1 - b * y2 /\ x2 = a * y2 + b * y1.
Proof.
  destruct x as [x1 x2|], y as [y1 y2|]; try (intros HH; unfold cdiv, cadd, csub, cmul, clift2 in HH; discriminate HH). unfold cdiv, clift2.
  destruct (Req_EM_T (y1^2 + y2^2) 0) as [|N]; [discriminate|]. intros E. apply (f_equal (fun z => match z with CFin u v => (u, v) | CUnd => (0, 0) end)) in E.
  injection E as E1 E2. exists x1, x2, y1, y2. split; [reflexivity|]. split; [reflexivity|]. split; [exact N|].
  rewrite <- E1, <- E2. split; field; intros Z; apply N; rewrite <- Z; ring.
Qed.
Lemma cadd_inv x y a b : cadd x y = CFin a b -> exists x1 x2 y1 y2, x = CFin x1 x2 /\ y = CFin y1 y2 /\ a = x1 + y1 /\ b = x2 + y2.
Proof. destruct x as [x1 x2|], y as [y1 y2|]; try (intros HH; unfold cdiv, cadd, csub, cmul, clift2 in HH; discriminate HH). intros E. injection E as <- <-. do 4 eexists. repeat split. Qed.
Lemma csub_inv x y a b : csub x y = CFin a b -> exists x1 x2 y1 y2, x = CFin x1 x2 /\ y = CFin y1 y2 /\ a = x1 - y1 /\ b = x2 - y2.
Proof. destruct x as [x1 x2|], y as [y1 y2|]; try (intros HH; unfold cdiv, cadd, csub, cmul, clift2 in HH; discriminate HH). intros E. injection E as <- <-. do 4 eexists. repeat split. Qed.
Lemma cmul_inv x y a b : cmul x y = CFin a b -> exists x1 x2 y1 y2, x = CFin x1 x2 /\ y = CFin y1 y2 /\ a = x1 * y1 - x2 * y2 /\ b = x1 * y2 + x2 * y1.
Proof. destruct x as [x1 x2|], y as [y1 y2|]; try (intros HH; unfold cdiv, cadd, csub, cmul, clift2 in HH; discriminate HH). intros E. injection E as <- <-. do 4 eexists. repeat split. Qed.
Lemma cneg_inv x a b : cneg x = CFin a b -> x = CFin (- a) (- b).
Proof. destruct x as [x1 x2|]; try discriminate. intros E. injection E as <- <-. f_equal; ring. Qed.
Lemma csqrt_some x a b : csqrt x = CFin a b -> exists c d, x = CFin c d.
Proof. destruct x; [eauto|discriminate]. Qed.
(** Reciprocal of the real part of a square root: a velocity. *)
Lemma inv_creal_inv z v : fdiv NumPy (Fin 1) (creal z) = Fin v -> exists a b, z = CFin a b /\ a <> 0 /\ v = 1 / a.
Proof.
  destruct z as [a b|]; cbn [creal]; [|discriminate].
  destruct (Req_EM_T a 0) as [->|N].
  - rewrite fdiv_zero_np by lra. discriminate.
  - rewrite fdiv_fin by auto. intros E. injection E as <-. eauto.
Qed.
Lemma iq_inv x iq : fdiv NumPy (cimag (cdiv (CFin 1 0) x)) (creal (cdiv (CFin 1 0) x)) = Fin iq ->
  exists y z, cmul (CFin y z) x = CFin 1 0 /\ iq * y = z.
Proof.
  destruct (cdiv (CFin 1 0) x) as [y z|] eqn:E; cbn [creal cimag]; [|discriminate].
  apply cdiv_inv in E. destruct E as (x1 & x2 & y1 & y2 & E1 & -> & N & E2 & E3). injection E1 as <- <-.
  intros F. exists y, z. split.
  - rewrite cmul_fin. apply cfin_eq; lra.
  - destruct (Req_EM_T y 0) as [->|Ny].
    + exfalso. destruct (Req_EM_T z 0) as [->|Nz].
      * lra.
      * rewrite fdiv_zero_np in F by auto. discriminate.
    + rewrite fdiv_fin in F by auto. injection F as <-. field. auto.
Qed.
Lemma velocity_pack x v iq : fdiv NumPy (Fin 1) (creal (csqrt x)) = Fin v ->
  fdiv NumPy (cimag (cdiv (CFin 1 0) x)) (creal (cdiv (CFin 1 0) x)) = Fin iq -> complex_velocity x v iq.
Proof.
  intros E1 E2. apply inv_creal_inv in E1. destruct E1 as (a & b & E & Na & ->).
  apply csqrt_sq in E. destruct E as (E & Pa). apply iq_inv in E2. destruct E2 as (y & z & F1 & F2).
  exists a, b, y, z. repeat split; auto; [lra|field; auto].
Qed.
Lemma quad_root Ta tb tc r p : Ta <> 0 -> csqrt (csub (cmul tb tb) (cmul (cmul (CFin 4 0) (CFin Ta 0)) tc)) = r ->
  (cdiv (cadd (cneg tb) r) (CFin (2 * Ta) 0) = p \/ cdiv (csub (cneg tb) r) (CFin (2 * Ta) 0) = p) -> p <> CUnd ->
  cadd (cadd (cmul (CFin Ta 0) (cmul p p)) (cmul tb p)) tc = CFin 0 0.
Proof.
  intros HT Hr Hp Np. destruct p as [u v|]; [|congruence].
  assert (X : exists b1 b2 r1 r2, tb = CFin b1 b2 /\ r = CFin r1 r2 /\
     ((2 * Ta * u = - b1 + r1 /\ 2 * Ta * v = - b2 + r2) \/ (2 * Ta * u = - b1 - r1 /\ 2 * Ta * v = - b2 - r2))).
  { destruct Hp as [Hp|Hp]; apply cdiv_inv in Hp; destruct Hp as (x1 & x2 & y1 & y2 & E1 & E2 & _ & E3 & E4);
    injection E2 as <- <-; [apply cadd_inv in E1 | apply csub_inv in E1];
    destruct E1 as (n1 & n2 & r1 & r2 & E5 & -> & -> & ->); apply cneg_inv in E5; subst tb;
    exists (- n1), (- n2), r1, r2; repeat split; auto; [left|right]; lra. }
  destruct X as (b1 & b2 & r1 & r2 & -> & -> & X).
  apply csqrt_sq in Hr as (Hr & _). rewrite cmul_fin in Hr.
  destruct tc as [c1 c2|]; [|cbn in Hr; discriminate]. rewrite !cmul_fin, csub_fin in Hr.
  injection Hr as R1 R2. rewrite !cmul_fin, !cadd_fin. apply cfin_eq; apply Rmult_eq_reg_l with (4 * Ta); try lra.
  - transitivity ((2*Ta*u)^2 - (2*Ta*v)^2 + 2 * (b1 * (2*Ta*u) - b2 * (2*Ta*v)) + 4 * Ta * c1); [ring|].
    assert (R1' : r1 * r1 - r2 * r2 = b1 * b1 - b2 * b2 - 4 * Ta * c1) by lra.
    destruct X as [(-> & ->)|(-> & ->)].
    + transitivity ((r1 * r1 - r2 * r2) - (b1 * b1 - b2 * b2) + 4 * Ta * c1); [ring|rewrite R1'; ring].
    + transitivity ((r1 * r1 - r2 * r2) - (b1 * b1 - b2 * b2) + 4 * Ta * c1); [ring|rewrite R1'; ring].
  - transitivity (2 * (2*Ta*u) * (2*Ta*v) + 2 * (b1 * (2*Ta*v) + b2 * (2*Ta*u)) + 4 * Ta * c2); [ring|].
    assert (R2' : 2 * r1 * r2 = 2 * b1 * b2 - 4 * Ta * c2) by lra.
    destruct X as [(-> & ->)|(-> & ->)].
    + transitivity ((2 * r1 * r2) - (2 * b1 * b2) + 4 * Ta * c2); [ring|rewrite R2'; ring].
    + transitivity ((2 * r1 * r2) - (2 * b1 * b2) + 4 * Ta * c2); [ring|rewrite R2'; ring].
Qed.
Lemma dispersion_of_quad H C M rho rf q p : p <> CUnd -> q <> CUnd ->
  cadd (cadd (cmul (CFin (C^2 - M * H) 0) (cmul p p))
         (cmul (csub (cadd (cmul (CFin H 0) q) (CFin (M * rho) 0)) (CFin (2 * C * rf) 0)) p))
       (csub (CFin (rf^2) 0) (cmul (CFin rho 0) q)) = CFin 0 0 ->
  biot_P_slowness2 H C M rho rf q p.
Proof.
  destruct p as [u v|], q as [q1 q2|]; try congruence. intros _ _. unfold biot_P_slowness2.
  repeat first [rewrite cmul_fin | rewrite csub_fin | rewrite cadd_fin]. intros E.
  injection E as E1 E2. apply cfin_eq; [etransitivity; [|exact E1]|etransitivity; [|exact E2]]; ring.
Qed.
Lemma ta_nonzero H C M : 0 < M -> C^2 < M * H -> C^2 - M * H <> 0.
Proof. intros. lra. Qed.

Lemma visc_factor jv z F : 0 < z -> F <> CUnd ->
  F = match fltb (Fin z) (Fin (1/10)) with
      | Some true => CFin 1 0
      | Some false => let z4 := cmul (cof (Fin z)) (cexp (CFin 0 (- PI / 4))) in
          let T := match fleb (Fin z) (Fin 1000) with
                   | Some true => cdiv (cmul (cexp (CFin 0 (3 * PI / 4))) (jv 1%nat z4)) (jv 0%nat z4)
                   | Some false => cdiv (CFin 1 1) (CFin (sqrt 2) 0)
                   | None => CUnd
                   end in
          cmul (CFin (1/4) 0) (cdiv (cmul (cof (Fin z)) T) (cadd (CFin 1 0) (cdiv (cmul (CFin 0 2) T) (cof (Fin z)))))
      | None => CUnd end -> is_viscosity_factor jv z F.
Proof.
  intros Hz Fd E. assert (S2 : 0 < sqrt 2) by (apply sqrt_lt_R0; lra). set (r := 1 / sqrt 2).
  assert (E4 : cexp (CFin 0 (- PI / 4)) = CFin r (- r)).
  { cbn [cexp]. replace (- PI / 4) with (- (PI / 4)) by field. rewrite exp_0, cos_neg, sin_neg, cos_PI4, sin_PI4. unfold r. apply cfin_eq; ring. }
  assert (E3 : cexp (CFin 0 (3 * PI / 4)) = CFin (- r) r).
  { cbn [cexp]. replace (3 * PI / 4) with (3 * (PI / 4)) by field. rewrite exp_0, cos_3PI4, sin_3PI4. unfold r. apply cfin_eq; field; lra. }
  rewrite E3, E4 in E. cbn [cof] in E. cbv zeta in E. rewrite cmul_fin in E.
  replace (CFin (z * r - 0 * - r) (z * - r + 0 * r)) with (CFin (z * r) (- (z * r))) in E by (apply cfin_eq; ring).
  rewrite fltb_fin, fleb_fin in E. unfold is_viscosity_factor. fold r. cbv zeta. set (w := CFin (z * r) (- (z * r))) in *.
  split; intros Hc.
  - rewrite Rltb_true in E by exact Hc. exact E.
  - rewrite Rltb_false in E by lra.
    set (T := if Rleb z 1000 then cdiv (cmul (CFin (- r) r) (jv 1%nat w)) (jv 0%nat w) else cdiv (CFin 1 1) (CFin (sqrt 2) 0)) in *.
    destruct T as [t1 t2|] eqn:ET; [|exfalso; apply Fd; rewrite E; reflexivity].
    exists t1, t2. unfold T in ET. split; [|split].
    + intros L. rewrite Rleb_true in ET by exact L. apply cdiv_inv in ET. destruct ET as (p1 & p2 & p3 & p4 & A1 & A2 & N2 & A3 & A4).
      rewrite A1, A2, cmul_fin. apply cfin_eq; lra.
    + intros L. rewrite Rleb_false in ET by exact L. rewrite cdiv_fin in ET by (apply sumsq_nz; left; lra). injection ET as A1 A2.
      split; [rewrite <- A1|rewrite <- A2]; unfold r; field; lra.
    + rewrite !cmul_fin, cdiv_fin, cadd_fin in E by (apply sumsq_nz; left; lra).
      destruct (cdiv _ _) as [u v|] eqn:EU in E; [|exfalso; apply Fd; rewrite E; reflexivity].
      apply cdiv_inv in EU. destruct EU as (p1 & p2 & p3 & p4 & A1 & A2 & N2 & A3 & A4). injection A1 as <- <-. injection A2 as <- <-.
      rewrite E, !cmul_fin. 
      apply cfin_eq.
      * transitivity (1/4 * (z * t1 - 0 * t2)); [rewrite A3|]; field; lra.
      * transitivity (1/4 * (z * t2 + 0 * t1)); [rewrite A4|]; field; lra.
Qed.

Section Biot.
Variables (m : mode) (jv : nat -> cx -> cx) (Kd Gd K0 Kf r0 rf eta phi kap a al f : R).
Hypotheses (HK : 0 < K0) (HKf : 0 < Kf <= K0) (Hd : 0 < Kd < K0) (HG : 0 < Gd) (Hp : 0 < phi <= 1)
 (He : 0 < eta) (Ha : a <> 0) (Hrf : 0 < rf) (Hk : 0 < kap) (Hf : 0 < f).
Let N := biot_N K0 Kd Kf phi.
Let b := biot_b K0 Kd.
Let H := Kd + 4/3 * Gd + b^2 * N.
Let C := b * N.
Let rho := (1 - phi) * r0 + phi * rf.
Lemma Biot_dispersion V1 V2 Vs q1 q2 q3 :
  Fluid_Biot m jv (Fin Kd) (Fin Gd) (Fin K0) (Fin Kf) (Fin r0) (Fin rf) (Fin eta) (Fin phi) (Fin kap) (Fin a) (Fin al) (Fin f)
   = Ret (Fin V1, Fin V2, Fin Vs, Fin q1, Fin q2, Fin q3) ->
  exists F q x1 x2 x3,
    is_viscosity_factor jv (sqrt (a^2 * (2 * PI * f) * rf / eta)) F /\
    q = csub (CFin (al * rf / phi) 0) (cdiv (cmul (CFin 0 eta) F) (CFin (2 * PI * f * kap) 0)) /\
    biot_P_slowness2 H C N rho rf q x1 /\ complex_velocity x1 V1 q1 /\
    biot_P_slowness2 H C N rho rf q x2 /\ complex_velocity x2 V2 q2 /\
    biot_S_slowness2 Gd rho rf q x3 /\ complex_velocity x3 Vs q3.
Proof.
  assert (bX : (biot_b K0 Kd - phi) / K0 + phi / Kf = gB Kd K0 Kf phi) by (unfold biot_b, gB; field; lra).
  assert (g : 0 < gB Kd K0 Kf phi).
  { assert (x := gb_pos Kd K0 HK ltac:(lra)). assert (y := gB_pos Kd K0 Kf phi HK HKf ltac:(lra)). lra. }
  assert (EN : N = 1 / gB Kd K0 Kf phi) by (unfold N, biot_N; rewrite bX; reflexivity).
  assert (NP : 0 < N) by (rewrite EN; apply Rdiv_lt_0_compat; lra).
  set (D := K0 * (1 + phi * (K0 / Kf - 1))).
  assert (ED : D - Kd = K0^2 * gB Kd K0 Kf phi) by (unfold D, gB; field; lra).
  assert (K2 : 0 < K0^2) by (apply pow_lt; lra).
  assert (DP : 0 < D - Kd) by (rewrite ED; apply Rmult_lt_0_compat; lra).
  assert (EM : K0^2 / (D - Kd) = N) by (rewrite ED, EN; field; lra).
  assert (EC : (K0 - Kd) * K0 / (D - Kd) = C) by (unfold C, b, biot_b; rewrite ED, EN; field; lra).
  assert (EH : Kd + 4 * Gd / 3 + (K0 - Kd)^2 / (D - Kd) = H) by (unfold H, b, biot_b; rewrite ED, EN; field; lra).
  assert (Pi := PI_RGT_0).
  set (w := 2 * PI * f). assert (Hw : 0 < w) by (unfold w; apply Rmult_lt_0_compat; lra).
  assert (a2 : 0 < a^2) by (assert (X := pow2_ge_0 a); destruct X as [|X]; [auto|symmetry in X; exfalso; apply (pow_nonzero a 2 Ha); auto]).
  assert (Hz : 0 < w * a^2 * rf / eta) by (apply Rdiv_lt_0_compat; [|lra]; apply Rmult_lt_0_compat; [apply Rmult_lt_0_compat|]; lra).
  unfold Fluid_Biot.
  repeat (first [fl1 | rewrite fdiv_fin by (assumption || lra)]; cbv beta zeta). fold rho. fold D. 
  repeat (first [fl1 | rewrite fdiv_fin by (assumption || lra)]; cbv beta zeta). rewrite EM, EC, EH. fold w.
  repeat (first [fl1 | rewrite fdiv_fin by (assumption || lra)]; cbv beta zeta).
  rewrite fsqrt_fin by lra. rewrite bind_fin. cbv beta.
  set (zeta := sqrt (w * a^2 * rf / eta)).
  match goal with |- context [csub (cof (Fin (al * rf / phi))) (cdiv (cmul (cmul cI (cof (Fin eta))) ?Fx) _)] => set (F := Fx) end.
  match goal with |- context [csub (cof (Fin (al * rf / phi))) ?y] => set (q := csub (cof (Fin (al * rf / phi))) y) end.
  repeat (first [fl1]; cbv beta zeta).
  set (Ta := C^2 - N * H). cbn [cof].
  set (tb := csub (cadd (cmul (CFin H 0) q) (CFin (N * rho) 0)) (CFin (2 * C * rf) 0)).
  set (tc := csub (CFin (rf^2) 0) (cmul (CFin rho 0) q)).
  set (rt := csqrt (csub (cmul tb tb) (cmul (cmul (CFin 4 0) (CFin Ta 0)) tc))).
  set (x1 := cdiv (cadd (cneg tb) rt) (CFin (2 * Ta) 0)).
  set (x2 := cdiv (csub (cneg tb) rt) (CFin (2 * Ta) 0)).
  set (x3 := cdiv (csub (cmul (CFin rho 0) q) (CFin (rf^2) 0)) (cmul (CFin Gd 0) q)).
  intros E.
  repeat match type of E with bind ?x _ = _ => let h := fresh "B" in destruct x eqn:h; cbn [bind] in E; try discriminate E end.
  injection E as -> -> -> -> -> ->.
  assert (V_1 := velocity_pack _ _ _ B B2). assert (V_2 := velocity_pack _ _ _ B0 B3). assert (V_3 := velocity_pack _ _ _ B1 B4).
  assert (NX : forall x v iq, complex_velocity x v iq -> x <> CUnd).
  { intros x v iq (p1 & p2 & p3 & p4 & <- & _). discriminate. }
  assert (Nq : q <> CUnd).
  { intros Eq. apply (NX _ _ _ V_3). unfold x3. rewrite Eq. reflexivity. }
  assert (HTa : Ta <> 0).
  { unfold Ta, C, H. assert (0 < N * (Kd + 4/3*Gd)) by (apply Rmult_lt_0_compat; lra).
    replace ((b * N)^2 - N * (Kd + 4/3*Gd + b^2 * N)) with (- (N * (Kd + 4/3*Gd))) by ring. lra. }
  exists F, q, x1, x2, x3. split; [|split; [|split; [|split; [|split; [|split; [|split]]]]]]; auto.
  - replace (a^2 * w * rf / eta) with (w * a^2 * rf / eta) by (field; lra). fold zeta.
    assert (Fz : 0 < zeta) by (unfold zeta; apply sqrt_lt_R0; exact Hz).
    assert (Fd : F <> CUnd). { intros EF. apply Nq. unfold q. rewrite EF. reflexivity. }
    apply visc_factor; [exact Fz|exact Fd|reflexivity].
  - unfold q. fold w. replace (cmul (CFin 0 eta) F) with (cmul (cmul cI (CFin eta 0)) F); [reflexivity|].
    unfold cI. rewrite cmul_fin. f_equal. apply cfin_eq; ring.
  - apply dispersion_of_quad; [eapply NX; eauto|auto|]. apply (quad_root _ _ _ rt); [exact HTa|reflexivity|left; reflexivity|eapply NX; eauto].
  - apply dispersion_of_quad; [eapply NX; eauto|auto|]. apply (quad_root _ _ _ rt); [exact HTa|reflexivity|right; reflexivity|eapply NX; eauto].
  - unfold biot_S_slowness2. destruct x3 as [u v|] eqn:Ex; [|exfalso; eapply NX; eauto].
    unfold x3 in Ex. apply cdiv_inv in Ex. destruct Ex as (p1 & p2 & p3 & p4 & E1 & E2 & N2 & E3 & E4).
    rewrite E1. destruct q as [qa qb|]; [|congruence]. rewrite cmul_fin in E2. injection E2 as <- <-.
    rewrite !cmul_fin. apply cfin_eq; lra.
Qed.
End Biot.

(** ** Mavko-Jizba *)
Section MJ.
Variables (m : mode) (K0 rd rf Kf phi Kd Gd Kh Gh vph vsh vpd vsd : R).
Hypotheses (HK : 0 < K0) (HKf : 0 < Kf <= K0) (Hd : 0 < Kd) (HG : 0 < Gd) (Hh : 0 < Kh < K0) (Hp : 0 < phi <= 1)
 (Hr : 0 < rd + phi * rf) (Hc : 4/15 * (1 / Kd - 1 / Kh) < 1 / Gd).
Hypotheses (E1 : utils_M_from_V m (Fin rd) (Fin vpd) (Fin vsd) = Ret (Fin Kd, Fin Gd))
 (E2 : utils_M_from_V m (Fin rd) (Fin vph) (Fin vsh) = Ret (Fin Kh, Fin Gh)).
Lemma MJ_facts : exists Ks G Vp Vs,
  Fluid_Mavko_Jizba m (Fin vph) (Fin vsh) (Fin vpd) (Fin vsd) (Fin K0) (Fin rd) (Fin rf) (Fin Kf) (Fin phi)
   = Ret (Fin Ks, Fin G, Fin Vp, Fin Vs) /\
  Fluid_Gassmann m (Fin Kh) (Fin Gd) (Fin K0) (Fin Kf) (Fin phi) = Ret (Fin Ks, Fin Gd) /\
  1 / G - 1 / Gd = - 4/15 * (1 / Kd - 1 / Kh) /\ 0 < G /\
  utils_V m (Fin Ks) (Fin G) (Fin (rd + phi * rf)) = Ret (Fin Vp, Fin Vs) /\ (Kd <= Kh -> Gd <= G).
Proof.
  assert (b := gb_pos Kh K0 HK ltac:(lra)). assert (B := gB_pos Kh K0 Kf phi HK HKf Hp).
  destruct (gK_range Kh K0 Kf phi HK HKf ltac:(lra) Hp) as (L & U).
  set (gi := 1 / Gd - 4/15 * (1 / Kd - 1 / Kh)) in *. assert (Hgi : 0 < gi) by (unfold gi; lra).
  assert (0 < 1 / gi) by (apply Rdiv_lt_0_compat; lra).
  exists (gK Kh K0 Kf phi), (1 / gi). do 2 eexists.
  assert (EV := V_eval m (gK Kh K0 Kf phi) (1 / gi) (rd + phi * rf) Hr ltac:(lra) ltac:(lra)).
  split; [|split; [|split; [|split; [|split]]]].
  - unfold Fluid_Mavko_Jizba. rewrite E1, call_ret. cbv beta iota. rewrite E2, call_ret. cbv beta iota.
    rewrite bind_fin. cbv beta. rewrite Gassmann_eval, call_ret by lra. cbv beta iota.
    repeat (first [fl1 | rewrite fdiv_fin by (assumption || lra)]; cbv beta). fold gi.
    repeat (first [fl1 | rewrite fdiv_fin by (assumption || lra)]; cbv beta).
    rewrite EV, call_ret. cbv beta iota. reflexivity.
  - apply Gassmann_eval; lra.
  - replace (1 / (1 / gi)) with gi by (field; lra). unfold gi. field. lra.
  - lra.
  - exact EV.
  - intros HKK. assert (1 / Kh <= 1 / Kd) by (apply Rmult_le_compat_l; [lra|apply inv_le; lra]).
    assert (gi <= 1 / Gd) by (unfold gi; lra).
    replace Gd with (1 / (1 / Gd)) at 1 by (field; lra). apply Rmult_le_compat_l; [lra|]. apply inv_le; lra.
Qed.
End MJ.

(** ** Squirt, anisotropic *)
Section Sq.
Variables (m : mode) (s0 s1 s2 s3 s4 h0 h1 h2 h3 h4 : R).
Let V := vol5 (s0 - h0) (s1 - h1) (s2 - h2) (s3 - h3).
Definition sqT (s0 s1 s2 s3 s4 h0 h1 h2 h3 h4 : R) :=
  let V := vol5 (s0 - h0) (s1 - h1) (s2 - h2) (s3 - h3) in
  2 - (2 * (s0 - h0) + (s3 - h3) + 4 * (s4 - h4) + 4 * (s0 - h0 - (s1 - h1))) / V.
Let T := sqT s0 s1 s2 s3 s4 h0 h1 h2 h3 h4.
Hypotheses (HV : V <> 0) (HT : T <> 0).
Definition sqalpha := (1 - T) / 4.
Let G11 := (s0 - h0) / V - 4 * sqalpha / T * ((s1 - h1) / V + (s2 - h2) / V).
Let G12 := (s1 - h1) / V / T.
Let G13 := (s2 - h2) / V / T.
Let G33 := (s3 - h3) / V - 8 * sqalpha * ((s2 - h2) / V) / T.
Let G44 := (s4 - h4) / V / T - ((s0 - h0) / V + (s2 - h2) / V) / (4 * T) + (G11 + G33) / 4.
Lemma Squirt_eval :
  Fluid_Squirt_anisotropic m (Fin s0, Fin s1, Fin s2, Fin s3, Fin s4) (Fin h0, Fin h1, Fin h2, Fin h3, Fin h4)
  = Ret [Fin (s0 - V * G11); Fin (s1 - V * G12); Fin (s2 - V * G13); Fin (s3 - V * G33); Fin (s4 - V * G44)].
Proof.
  unfold Fluid_Squirt_anisotropic. repeat (fl1; cbv beta).
  change (2 * (s0 - h0) + 2 * (s1 - h1) + 4 * (s2 - h2) + (s3 - h3)) with V.
  repeat (first [fl1 | rewrite fdiv_fin by assumption]; cbv beta).
  match goal with |- context [1 - 4 * ?a] => replace a with sqalpha end.
  2:{ unfold sqalpha, T, sqT. fold V. field. auto. }
  replace (1 - 4 * sqalpha) with T by (unfold sqalpha; field).
  assert (4 * T <> 0) by lra.
  repeat (first [fl1 | rewrite fdiv_fin by (assumption || lra)]; cbv beta).
  reflexivity.
Qed.
Lemma Squirt_vol : exists w0 w1 w2 w3 w4,
  Fluid_Squirt_anisotropic m (Fin s0, Fin s1, Fin s2, Fin s3, Fin s4) (Fin h0, Fin h1, Fin h2, Fin h3, Fin h4)
  = Ret [Fin w0; Fin w1; Fin w2; Fin w3; Fin w4] /\ vol5 w0 w1 w2 w3 = vol5 h0 h1 h2 h3.
Proof.
  do 5 eexists. split; [apply Squirt_eval|].
  assert (E : 2 * G11 + 2 * G12 + 4 * G13 + G33 = 1).
  { unfold G11, G12, G13, G33. transitivity ((2 * (s0 - h0) + 2 * (s1 - h1) + 4 * (s2 - h2) + (s3 - h3)) / V).
    - unfold sqalpha. fold T. clearbody V T. field. auto.
    - change (V / V = 1). field. auto. }
  transitivity (vol5 s0 s1 s2 s3 - V * (2 * G11 + 2 * G12 + 4 * G13 + G33)); [unfold vol5; ring|].
  rewrite E. unfold V, vol5. ring.
Qed.
End Sq.
(** Isotropic dry compliances at both pressures: the output is not isotropic. *)
Lemma Squirt_iso m s0 s1 h0 h1 :
  let s4 := (s0 - s1) / 2 in let h4 := (h0 - h1) / 2 in
  vol5 (s0 - h0) (s1 - h1) (s1 - h1) (s0 - h0) <> 0 -> sqT s0 s1 s1 s0 s4 h0 h1 h1 h0 h4 <> 0 ->
  exists w0 w1 w2 w3 w4,
  Fluid_Squirt_anisotropic m (Fin s0, Fin s1, Fin s1, Fin s0, Fin s4) (Fin h0, Fin h1, Fin h1, Fin h0, Fin h4)
  = Ret [Fin w0; Fin w1; Fin w2; Fin w3; Fin w4] /\ w0 = w3 /\ w1 = w2 /\
  (w4 = (w0 - w1) / 2 <-> s0 - s1 = h0 - h1).
Proof.
  intros s4 h4 HV HT. do 5 eexists. split; [apply Squirt_eval; [exact HV|exact HT]|].
  set (T := sqT s0 s1 s1 s0 s4 h0 h1 h1 h0 h4) in *.
  set (V := vol5 (s0 - h0) (s1 - h1) (s1 - h1) (s0 - h0)) in *.
  split; [field; auto|]. split; [reflexivity|].
  set (al := sqalpha s0 s1 s1 s0 s4 h0 h1 h1 h0 h4).
  match goal with |- (?x = ?y <-> _) => assert (E : x - y = - ((s0 - s1) - (h0 - h1)) / (4 * T)) end.
  { unfold s4, h4. field. auto. }
  split; intros X.
  - rewrite X in E. assert (Y : - ((s0 - s1) - (h0 - h1)) / (4 * T) = 0) by lra.
    assert (Z : - ((s0 - s1) - (h0 - h1)) = (- ((s0 - s1) - (h0 - h1)) / (4 * T)) * (4 * T)) by (field; auto).
    rewrite Y in Z. lra.
  - rewrite X in E. replace (- (h0 - h1 - (h0 - h1)) / (4 * T)) with 0 in E by (field; auto). lra.
Qed.
