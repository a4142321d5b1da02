(** * Fluid.py: Biot high-frequency limit, Geertsma-Smit. *)
From Verif Require Import Fl Cx M_Utils M_EM M_Anis M_Fluid Spec Spec2 RealLemmas L_Utils L_Anis L_Fluid1.
Open Scope R_scope.

(** Two-by-two generalised eigenvalue problem. *)
Section Pencil.
Variables P Q R0 a b c : R.
Hypotheses (HP : 0 < P) (H4 : 0 <= P * R0 - Q^2) (Ha : 0 < a) (HD : 0 < a * c - b^2).
Let D := a * c - b^2.
Let T4 := P * R0 - Q^2.
Definition pDel := P * c + R0 * a - 2 * Q * b.
Definition pdisc := pDel^2 - 4 * (a * c - b^2) * (P * R0 - Q^2).
Definition pfast := (pDel + sqrt pdisc) / (2 * (a * c - b^2)).
Definition pslow := (pDel - sqrt pdisc) / (2 * (a * c - b^2)).
Lemma pdisc_nonneg : 0 <= pdisc.
Proof.
  assert (E : a^2 * pdisc = (P * D - (a^2*R0 - 2*a*b*Q + b^2*P))^2 + 4 * D * (a*Q - b*P)^2).
  { unfold pdisc, pDel, D. ring. }
  assert (0 <= a^2 * pdisc).
  { rewrite E. assert (0 <= 4 * D * (a*Q - b*P)^2) by (apply Rmult_le_pos; [unfold D; lra|apply pow2_ge_0]).
    assert (X := pow2_ge_0 (P * D - (a^2*R0 - 2*a*b*Q + b^2*P))). lra. }
  assert (0 < a^2) by (apply pow_lt; auto).
  destruct (Rle_or_lt 0 pdisc); [auto|]. nra.
Qed.
Lemma pDel_pos : 0 < pDel.
Proof.
  assert (E : a * P * pDel = P * P * D + (P * b - Q * a)^2 + a^2 * T4) by (unfold pDel, D, T4; ring).
  assert (0 < P * P * D) by (repeat apply Rmult_lt_0_compat; auto).
  assert (X := pow2_ge_0 (P * b - Q * a)).
  assert (0 <= a^2 * T4) by (apply Rmult_le_pos; [apply pow2_ge_0|auto]).
  assert (0 < a * P) by (apply Rmult_lt_0_compat; auto).
  destruct (Rlt_or_le 0 pDel); [auto|]. assert (a * P * pDel <= 0) by nra. lra.
Qed.
Lemma psqrt_le : sqrt pdisc <= pDel.
Proof.
  assert (X := pDel_pos). rewrite <- (sqrt_pow2 pDel) by lra. apply sqrt_le_1_alt. unfold pdisc.
  assert (0 <= 4 * D * T4); [|unfold D, T4 in *; lra].
  apply Rmult_le_pos; [unfold D; lra|exact H4].
Qed.
Lemma pslow_nonneg : 0 <= pslow.
Proof. assert (X := psqrt_le). unfold pslow. apply Rmult_le_pos; [lra|left; apply Rinv_0_lt_compat; lra]. Qed.
Lemma pslow_fast : pslow <= pfast.
Proof.
  unfold pslow, pfast. apply Rmult_le_compat_r; [left; apply Rinv_0_lt_compat; lra|].
  assert (X := sqrt_pos pdisc). lra.
Qed.
Lemma pfast_pos : 0 < pfast.
Proof.
  unfold pfast. apply Rdiv_lt_0_compat; [|lra]. assert (X := sqrt_pos pdisc). assert (Y := pDel_pos). lra.
Qed.
Lemma pfactor x : (P - a * x) * (R0 - c * x) - (Q - b * x)^2 = (a * c - b^2) * ((x - pfast) * (x - pslow)).
Proof.
  assert (S : sqrt pdisc * sqrt pdisc = pdisc) by (apply sqrt_sqrt, pdisc_nonneg).
  assert (E1 : pfast + pslow = pDel / (a * c - b^2)) by (unfold pfast, pslow; field; lra).
  assert (E2 : pfast * pslow = (P * R0 - Q^2) / (a * c - b^2)).
  { unfold pfast, pslow. 
    replace ((pDel + sqrt pdisc) / (2 * (a * c - b ^ 2)) * ((pDel - sqrt pdisc) / (2 * (a * c - b ^ 2))))
      with ((pDel^2 - sqrt pdisc * sqrt pdisc) / (4 * (a * c - b^2)^2)) by (field; lra).
    rewrite S. unfold pdisc. field. lra. }
  replace ((x - pfast) * (x - pslow)) with (x^2 - (pfast + pslow) * x + pfast * pslow) by ring.
  rewrite E1, E2. unfold pDel. field. lra.
Qed.
Lemma pslow_pos : 0 < P * R0 - Q^2 -> 0 < pslow.
Proof.
  intros H. destruct pslow_nonneg as [|E]; [auto|]. exfalso.
  assert (X := pfactor 0). rewrite <- E in X. nra.
Qed.
Lemma prayleigh rho : rho = a + 2 * b + c -> 0 < rho -> pslow <= (P + 2 * Q + R0) / rho <= pfast.
Proof.
  intros Er Hr. set (x := (P + 2 * Q + R0) / rho).
  assert (E : (P - a * x) + 2 * (Q - b * x) + (R0 - c * x) = 0) by (unfold x; rewrite Er in *; field; lra).
  assert (F := pfactor x).
  assert (N : (P - a * x) * (R0 - c * x) - (Q - b * x)^2 <= 0).
  { set (u := P - a * x) in *. set (w := R0 - c * x) in *. set (v := Q - b * x) in *.
    assert (v = - (u + w) / 2) by lra. subst v. rewrite H. assert (X := pow2_ge_0 (u - w)). nra. }
  rewrite F in N. assert (L := pslow_fast).
  assert ((x - pfast) * (x - pslow) <= 0) by (destruct (Rle_or_lt ((x - pfast) * (x - pslow)) 0); [auto|nra]).
  destruct (Rle_or_lt pslow x), (Rle_or_lt x pfast); split; auto; nra.
Qed.
End Pencil.

Section BiotHF.
Variables (m : mode) (Kd Gd K0 Kf r0 rf phi al : R).
Hypotheses (HK : 0 < K0) (HKf : 0 < Kf <= K0) (Hd : 0 < Kd < K0) (HG : 0 <= Gd)
  (Hp : 0 < phi < 1) (Hr0 : 0 < r0) (Hrf : 0 < rf) (Hal : 1 <= al).
Let b := biot_b K0 Kd.
Let N := biot_N K0 Kd Kf phi.
Let P := biot_P K0 Kd Gd Kf phi.
Let Q := biot_Q K0 Kd Kf phi.
Let R0 := biot_R K0 Kd Kf phi.
Let r11 := biot_r11 r0 rf phi al.
Let r12 := biot_r12 rf phi al.
Let r22 := biot_r22 rf phi al.
Lemma bX : (biot_b K0 Kd - phi) / K0 + phi / Kf = gB Kd K0 Kf phi.
Proof. unfold biot_b, gB. field. lra. Qed.
Lemma gBp : 0 < gB Kd K0 Kf phi.
Proof. assert (x := gb_pos Kd K0 HK ltac:(lra)). assert (y := gB_pos Kd K0 Kf phi HK HKf ltac:(lra)). lra. Qed.
Lemma bN_pos : 0 < N.
Proof. unfold N, biot_N. rewrite bX. assert (X := gBp). apply Rdiv_lt_0_compat; lra. Qed.
Lemma bP_pos : 0 < P.
Proof.
  unfold P, biot_P. fold N. assert (X := bN_pos).
  assert (0 <= (biot_b K0 Kd - phi)^2 * N) by (apply Rmult_le_pos; [apply pow2_ge_0|lra]). lra.
Qed.
Lemma b_T4 : P * R0 - Q^2 = (Kd + 4/3*Gd) * phi^2 * N.
Proof. unfold P, R0, Q, biot_P, biot_Q, biot_R. fold N. ring. Qed.
Lemma b_T4_pos : 0 < P * R0 - Q^2.
Proof. rewrite b_T4. assert (X := bN_pos). apply Rmult_lt_0_compat; [|exact X]. apply Rmult_lt_0_compat; [lra|apply pow_lt; lra]. Qed.
Lemma b_r11_pos : 0 < r11.
Proof.
  unfold r11, biot_r11, biot_r12. assert (0 <= (al - 1) * phi * rf) by (repeat apply Rmult_le_pos; lra).
  assert (0 < (1 - phi) * r0) by (apply Rmult_lt_0_compat; lra). lra.
Qed.
Lemma b_T3 : r11 * r22 - r12^2 = phi * rf * (al * (1 - phi) * r0 + (al - 1) * phi * rf).
Proof. unfold r11, r22, r12, biot_r11, biot_r22, biot_r12. ring. Qed.
Lemma b_T3_pos : 0 < r11 * r22 - r12^2.
Proof.
  rewrite b_T3. assert (0 <= (al - 1) * phi * rf) by (repeat apply Rmult_le_pos; lra).
  assert (0 < al * (1 - phi) * r0) by (repeat apply Rmult_lt_0_compat; lra).
  apply Rmult_lt_0_compat; [apply Rmult_lt_0_compat|]; lra.
Qed.
Let fast := pfast P Q R0 r11 r12 r22.
Let slow := pslow P Q R0 r11 r12 r22.
Let rho := (1 - phi) * r0 + phi * rf.
Lemma brho : rho = r11 + 2 * r12 + r22.
Proof. unfold rho, r11, r22, r12, biot_r11, biot_r22, biot_r12. ring. Qed.
Lemma brho_pos : 0 < rho.
Proof. unfold rho. assert (0 < (1 - phi) * r0) by (apply Rmult_lt_0_compat; lra). assert (0 < phi * rf) by (apply Rmult_lt_0_compat; lra). lra. Qed.
Lemma brb : phi * rf * (1 / al) < rho.
Proof.
  unfold rho. assert (0 < (1 - phi) * r0) by (apply Rmult_lt_0_compat; lra).
  assert (0 < phi * rf) by (apply Rmult_lt_0_compat; lra).
  assert (1 / al <= 1) by (apply div_le_iff; lra).
  assert (phi * rf * (1 / al) <= phi * rf * 1) by (apply Rmult_le_compat_l; lra). lra.
Qed.
Lemma b_T12 : 1 - phi - Kd / K0 + phi * K0 / Kf = K0 * gB Kd K0 Kf phi.
Proof. unfold gB. field. lra. Qed.
Lemma Biot_HF_eval :
  Fluid_Biot_HF m (Fin Kd) (Fin Gd) (Fin K0) (Fin Kf) (Fin r0) (Fin rf) (Fin phi) (Fin al) =
  Ret (Fin (sqrt fast), Fin (sqrt slow), Fin (sqrt (Gd / (rho - phi * rf * (1 / al))))).
Proof.
  assert (g := gBp). assert (n0 := bN_pos).
  assert (h1 := bP_pos). assert (h2 := b_T4_pos). assert (h3 := b_r11_pos). assert (h4 := b_T3_pos).
  assert (h5 := pdisc_nonneg P Q R0 r11 r12 r22 h3 h4).
  assert (h6 := pfast_pos P Q R0 r11 r12 r22 h1 (Rlt_le _ _ h2) h3 h4).
  assert (h7 := pslow_nonneg P Q R0 r11 r12 r22 h1 (Rlt_le _ _ h2) h3 h4).
  assert (h8 := brb). assert (h9 : 0 <= Gd / (rho - phi * rf * (1 / al))) by (apply Rmult_le_pos; [lra|left; apply Rinv_0_lt_compat; lra]).
  assert (hX : 1 - phi - Kd / K0 + phi * K0 / Kf <> 0).
  { rewrite b_T12. apply Rmult_integral_contrapositive_currified; lra. }
  assert (eN : N = 1 / gB Kd K0 Kf phi) by (unfold N, biot_N; rewrite bX; reflexivity).
  assert (eR : phi^2 * K0 / (1 - phi - Kd / K0 + phi * K0 / Kf) = R0).
  { unfold R0, biot_R. fold N. rewrite eN, b_T12. field. lra. }
  assert (eQ : (1 - phi - Kd / K0) * phi * K0 / (1 - phi - Kd / K0 + phi * K0 / Kf) = Q).
  { unfold Q, biot_Q, biot_b. fold N. rewrite eN, b_T12. field. lra. }
  assert (eP : ((1 - phi) * (1 - phi - Kd / K0) * K0 + phi * K0 / Kf * Kd) / (1 - phi - Kd / K0 + phi * K0 / Kf) + 4 * Gd / 3 = P).
  { unfold P, biot_P, biot_b. fold N. 
    replace ((1 - phi) * (1 - phi - Kd / K0) * K0 + phi * K0 / Kf * Kd)
      with (Kd * (1 - phi - Kd / K0 + phi * K0 / Kf) + (1 - phi - Kd / K0)^2 * K0) by (field; lra).
    rewrite eN, b_T12. field. lra. }
  unfold Fluid_Biot_HF.
  repeat (first [fl1 | rewrite fdiv_fin by (assumption || lra)]; cbv beta).
  rewrite ?eR, ?eQ, ?eP. fold rho.
  replace ((1 - phi) * r0 - (1 - al) * phi * rf) with r11 by (unfold r11, biot_r11, biot_r12; ring).
  replace (al * phi * rf) with r22 by (unfold r22, biot_r22, biot_r12; ring).
  replace ((1 - al) * phi * rf) with r12 by (unfold r12, biot_r12; ring).
  fold (pDel P Q R0 r11 r12 r22). 
  change (pDel P Q R0 r11 r12 r22 ^ 2 - 4 * (r11 * r22 - r12 ^ 2) * (P * R0 - Q ^ 2)) with (pdisc P Q R0 r11 r12 r22).
  rewrite !(fsqrt_fin (pdisc _ _ _ _ _ _)) by assumption.
  repeat (first [fl1 | rewrite fdiv_fin by (assumption || lra)]; cbv beta).
  fold (pfast P Q R0 r11 r12 r22). fold (pslow P Q R0 r11 r12 r22).
  rewrite !fsqrt_fin by (assumption || lra). fls. reflexivity.
Qed.
Lemma Gass_P : P + 2 * Q + R0 = gK Kd K0 Kf phi + 4/3 * Gd.
Proof.
  assert (g := gBp). unfold P, Q, R0, biot_P, biot_Q, biot_R, biot_N. rewrite bX. unfold gK, biot_b. field. split; lra.
Qed.
Lemma Biot_HF_facts : exists Vf Vs Vsh,
  Fluid_Biot_HF m (Fin Kd) (Fin Gd) (Fin K0) (Fin Kf) (Fin r0) (Fin rf) (Fin phi) (Fin al) =
    Ret (Fin Vf, Fin Vs, Fin Vsh) /\ 0 < Vs <= Vf /\
  (forall v, 0 <= v -> biot_phase P Q R0 r11 r12 r22 v <-> v = Vf \/ v = Vs) /\
  Vsh^2 * (rho - phi * rf / al) = Gd /\ 0 <= Vsh.
Proof.
  assert (h1 := bP_pos). assert (h2 := b_T4_pos). assert (h3 := b_r11_pos). assert (h4 := b_T3_pos).
  assert (h6 := pslow_pos P Q R0 r11 r12 r22 h1 (Rlt_le _ _ h2) h3 h4 h2). fold slow in h6.
  assert (h7 := pslow_fast P Q R0 r11 r12 r22 h4). fold slow fast in h7.
  assert (h8 := brb). assert (h9 : 0 <= Gd / (rho - phi * rf * (1 / al))) by (apply Rmult_le_pos; [lra|left; apply Rinv_0_lt_compat; lra]).
  do 3 eexists. split; [apply Biot_HF_eval|]. split; [split; [apply sqrt_lt_R0; auto|apply sqrt_le_1_alt; auto]|].
  split.
  - intros v Hv. unfold biot_phase.
    assert (F := pfactor P Q R0 r11 r12 r22 h3 h4 (v^2)). fold slow fast in F. rewrite F.
    assert (S1 : v^2 - fast = (v - sqrt fast) * (v + sqrt fast)).
    { replace ((v - sqrt fast) * (v + sqrt fast)) with (v^2 - sqrt fast * sqrt fast) by ring. rewrite sqrt_sqrt by lra. ring. }
    assert (S2 : v^2 - slow = (v - sqrt slow) * (v + sqrt slow)).
    { replace ((v - sqrt slow) * (v + sqrt slow)) with (v^2 - sqrt slow * sqrt slow) by ring. rewrite sqrt_sqrt by lra. ring. }
    assert (X1 := sqrt_lt_R0 slow h6). assert (X2 := sqrt_lt_R0 fast ltac:(lra)).
    split.
    + intros E. apply Rmult_integral in E. destruct E as [E|E]; [lra|].
      apply Rmult_integral in E. rewrite S1, S2 in E.
      destruct E as [E|E]; apply Rmult_integral in E; destruct E; [left| |right|]; lra.
    + intros [->| ->].
      * rewrite pow2_sqrt by lra. ring.
      * rewrite pow2_sqrt by lra. ring.
  - split; [|apply sqrt_pos]. rewrite pow2_sqrt by auto. field. split; [lra|].
    intros E. assert (E2 : (rho - phi * rf * (1 / al)) * al = 0) by (field_simplify; lra). apply Rmult_integral in E2. lra.
Qed.
(** The low-frequency (Gassmann) velocities against the high-frequency ones (km/s against m/s). *)
Lemma Biot_HF_Gassmann : exists Vf Vs Vsh Vp V_s,
  Fluid_Biot_HF m (Fin Kd) (Fin Gd) (Fin K0) (Fin Kf) (Fin r0) (Fin rf) (Fin phi) (Fin al) =
    Ret (Fin Vf, Fin Vs, Fin Vsh) /\
  Fluid_vels m (Fin Kd) (Fin Gd) (Fin K0) (Fin r0) (Fin Kf) (Fin rf) (Fin phi) = Ret (Fin Vp, Fin V_s, Fin rho) /\
  1000 * Vs <= Vp <= 1000 * Vf /\ V_s <= 1000 * Vsh.
Proof.
  assert (h1 := bP_pos). assert (h2 := b_T4_pos). assert (h3 := b_r11_pos). assert (h4 := b_T3_pos).
  assert (h5 := brho_pos). 
  destruct (prayleigh P Q R0 r11 r12 r22 h3 h4 rho brho h5) as (A & B). rewrite Gass_P in A, B.
  assert (er : r0 * (1 - phi) + rf * phi = rho) by (unfold rho; ring).
  do 5 eexists. split; [apply Biot_HF_eval|]. split; [rewrite vels_eval by (try lra; rewrite er; auto); rewrite er; reflexivity|].
  assert (X := sqrt_le_1_alt _ _ A). assert (Y := sqrt_le_1_alt _ _ B). fold slow in X. fold fast in Y.
  split; [lra|].
  assert (h8 := brb). assert (0 <= phi * rf * (1 / al)).
  { apply Rmult_le_pos; [apply Rmult_le_pos; lra|]. apply Rmult_le_pos; [lra|left; apply Rinv_0_lt_compat; lra]. }
  assert (Gd / rho <= Gd / (rho - phi * rf * (1 / al))) by (apply Rmult_le_compat_l; [auto|apply inv_le; lra]).
  assert (Z := sqrt_le_1_alt _ _ H0). lra.
Qed.
Lemma GS_HF_eval : exists Vf Vs Vsh Vg,
  Fluid_Biot_HF m (Fin Kd) (Fin Gd) (Fin K0) (Fin Kf) (Fin r0) (Fin rf) (Fin phi) (Fin al) =
    Ret (Fin Vf, Fin Vs, Fin Vsh) /\
  Fluid_Geertsma_Smit_HF m (Fin Kd) (Fin Gd) (Fin K0) (Fin Kf) (Fin r0) (Fin rf) (Fin phi) (Fin al) =
    Ret (Fin Vg, Fin Vsh) /\ Vg^2 = Vf^2 + Vs^2 /\ Vf < Vg.
Proof.
  assert (g := gBp). assert (n0 := bN_pos).
  assert (h1 := bP_pos). assert (h2 := b_T4_pos). assert (h3 := b_r11_pos). assert (h4 := b_T3_pos).
  assert (h6 := pslow_pos P Q R0 r11 r12 r22 h1 (Rlt_le _ _ h2) h3 h4 h2). fold slow in h6.
  assert (h7 := pslow_fast P Q R0 r11 r12 r22 h4). fold slow fast in h7.
  assert (h8 := brb). assert (h9 : 0 <= Gd / (rho - phi * rf * (1 / al))) by (apply Rmult_le_pos; [lra|left; apply Rinv_0_lt_compat; lra]).
  assert (Erb : r0 * (1 - phi) + phi * rf * (1 - 1 / al) = rho - phi * rf * (1 / al)) by (unfold rho; ring).
  set (rb := rho - phi * rf * (1 / al)) in *.
  assert (Hrb : 0 < rb) by (unfold rb; lra).
  assert (ET3 : r11 * r22 - r12^2 = phi * rf * al * rb).
  { rewrite b_T3. unfold rb, rho. field. lra. }
  assert (bX' : (1 - Kd / K0 - phi) / K0 + phi / Kf = gB Kd K0 Kf phi) by (rewrite <- bX; reflexivity).
  assert (ES : 1 / rb * (Kd + 4 * Gd / 3 + (phi * rho / (rf * al) + (1 - Kd / K0) * (1 - Kd / K0 - 2 * phi / al)) / gB Kd K0 Kf phi) = fast + slow).
  { assert (E1 : fast + slow = pDel P Q R0 r11 r12 r22 / (phi * rf * al * rb)).
    { rewrite <- ET3. unfold fast, slow, pfast, pslow. field. lra. }
    rewrite E1. unfold pDel, P, Q, R0, biot_P, biot_Q, biot_R, biot_N. rewrite bX. unfold biot_b.
    unfold r11, r12, r22, biot_r11, biot_r22, biot_r12, rho.
    clear - g Hrb HK HKf Hp Hr0 Hrf Hal. clearbody rb. set (B := gB Kd K0 Kf phi) in *. clearbody B. field. repeat split; lra. }
  exists (sqrt fast), (sqrt slow), (sqrt (Gd / rb)), (sqrt (fast + slow)).
  split; [apply Biot_HF_eval|]. split.
  - unfold Fluid_Geertsma_Smit_HF.
    assert (rf * al <> 0) by (apply Rmult_integral_contrapositive_currified; lra).
    assert (nb : rb <> 0) by lra. assert (ng : gB Kd K0 Kf phi <> 0) by lra.
    repeat (first [fl1 | rewrite fdiv_fin by (assumption || lra)]; cbv beta).
    rewrite !Erb. repeat (first [fl1 | rewrite fdiv_fin by (assumption || lra)]; cbv beta).
    rewrite !bX'. repeat (first [fl1 | rewrite fdiv_fin by (assumption || lra)]; cbv beta).
    fold rho. rewrite ?ES. rewrite !fsqrt_fin by (assumption || lra). fls. reflexivity.
  - rewrite !pow2_sqrt by lra. split; [ring|]. apply sqrt_lt_1; lra.
Qed.
End BiotHF.

Section GSLF.
Variables (m : mode) (V0 Vi phi rf kap eta : R).
Hypotheses (H0 : 0 < V0) (Hi : V0 <= Vi) (Hp : 0 < phi) (Hrf : 0 < rf) (Hk : 0 < kap) (He : 0 < eta).
Definition gsv (a : R) := sqrt ((Vi^4 + V0^4 * a) / (Vi^2 + V0^2 * a)).
Definition gsfc := phi * eta / (2 * PI * rf * kap).
Lemma gsfc_pos : 0 < gsfc.
Proof. unfold gsfc. assert (X := PI_RGT_0). apply Rdiv_lt_0_compat; [apply Rmult_lt_0_compat; lra|].
  apply Rmult_lt_0_compat; [apply Rmult_lt_0_compat; lra|lra]. Qed.
Lemma GSLF_eval f : f <> 0 ->
  Fluid_Geertsma_Smit_LF m (Fin V0) (Fin Vi) (Fin f) (Fin phi) (Fin rf) (Fin kap) (Fin eta) = Ret (Fin (gsv ((gsfc / f)^2))).
Proof.
  intros Hf. unfold Fluid_Geertsma_Smit_LF. assert (X := PI_RGT_0).
  assert (0 < 2 * PI * rf * kap) by (apply Rmult_lt_0_compat; [apply Rmult_lt_0_compat; lra|lra]).
  repeat (first [fl1 | rewrite fdiv_fin by (assumption || lra)]; cbv beta). fold gsfc.
  assert (A := pow2_ge_0 (gsfc / f)). set (a := (gsfc / f)^2) in *.
  assert (0 < V0^2 /\ 0 < Vi^2 /\ 0 < V0^4 /\ 0 < Vi^4) as (P1 & P2 & P3 & P4) by (repeat split; apply pow_lt; lra).
  assert (0 <= V0^4 * a) by (apply Rmult_le_pos; lra). assert (0 <= V0^2 * a) by (apply Rmult_le_pos; lra).
  rewrite fdiv_fin by lra. rewrite fsqrt_fin.
  - fls. reflexivity.
  - apply Rmult_le_pos; [lra|left; apply Rinv_0_lt_compat; lra].
Qed.
Lemma gsv_form a : 0 <= a -> (Vi^4 + V0^4 * a) / (Vi^2 + V0^2 * a) = V0^2 + (Vi^2 - V0^2) * (Vi^2 / (Vi^2 + V0^2 * a)) .
Proof.
  intros Ha. assert (0 < V0^2 /\ 0 < Vi^2) as (P1 & P2) by (repeat split; apply pow_lt; lra).
  assert (0 <= V0^2 * a) by (apply Rmult_le_pos; lra). field. lra.
Qed.
Lemma gsv_range a : 0 <= a -> V0 <= gsv a <= Vi.
Proof.
  intros Ha. assert (0 < V0^2 /\ 0 < Vi^2) as (P1 & P2) by (repeat split; apply pow_lt; lra).
  assert (0 <= V0^2 * a) by (apply Rmult_le_pos; lra).
  assert (V0^2 <= Vi^2) by (apply pow_incr; lra).
  assert (0 <= Vi^2 / (Vi^2 + V0^2 * a) <= 1).
  { split; [apply Rmult_le_pos; [lra|left; apply Rinv_0_lt_compat; lra]|]. apply div_le_iff; lra. }
  unfold gsv. rewrite gsv_form by auto. split.
  - rewrite <- (sqrt_pow2 V0) at 1 by lra. apply sqrt_le_1_alt. nra.
  - rewrite <- (sqrt_pow2 Vi) at 4 by lra. apply sqrt_le_1_alt. nra.
Qed.
Lemma gsv_mono a a' : 0 <= a -> a <= a' -> gsv a' <= gsv a.
Proof.
  intros Ha H. assert (0 < V0^2 /\ 0 < Vi^2) as (P1 & P2) by (repeat split; apply pow_lt; lra).
  assert (0 <= V0^2 * a) by (apply Rmult_le_pos; lra). assert (V0^2 * a <= V0^2 * a') by (apply Rmult_le_compat_l; lra).
  assert (V0^2 <= Vi^2) by (apply pow_incr; lra).
  unfold gsv. apply sqrt_le_1_alt. rewrite !gsv_form by lra.
  apply Rplus_le_compat_l, Rmult_le_compat_l; [lra|]. apply Rmult_le_compat_l; [lra|]. apply inv_le; lra.
Qed.
Lemma GSLF_facts : exists V : R -> R,
  (forall f, 0 < f -> Fluid_Geertsma_Smit_LF m (Fin V0) (Fin Vi) (Fin f) (Fin phi) (Fin rf) (Fin kap) (Fin eta) = Ret (Fin (V f))) /\
  (forall f, 0 < f -> V0 <= V f <= Vi /\ V f^2 * (Vi^2 * f^2 + V0^2 * gsfc^2) = Vi^4 * f^2 + V0^4 * gsfc^2) /\ (forall f f', 0 < f -> f <= f' -> V f <= V f') /\
  (forall eps, 0 < eps -> exists F, 0 < F /\ forall f, 0 < f < F -> V f < V0 + eps) /\
  (forall eps, 0 < eps -> exists F, 0 < F /\ forall f, F < f -> Vi - eps < V f).
Proof.
  assert (C := gsfc_pos). assert (0 < V0^2 /\ 0 < Vi^2) as (P1 & P2) by (repeat split; apply pow_lt; lra).
  assert (PV : V0^2 <= Vi^2) by (apply pow_incr; lra).
  exists (fun f => gsv ((gsfc / f)^2)). split; [intros; apply GSLF_eval; lra|].
  split; [intros f Hf; split; [apply gsv_range, pow2_ge_0|]|].
  { assert (A := pow2_ge_0 (gsfc / f)). assert (0 <= V0^2 * (gsfc / f)^2) by (apply Rmult_le_pos; lra).
    assert (0 < V0^4 /\ 0 < Vi^4) as (P3 & P4) by (repeat split; apply pow_lt; lra). assert (0 <= V0^4 * (gsfc / f)^2) by (apply Rmult_le_pos; lra).
    unfold gsv. rewrite pow2_sqrt by (apply Rmult_le_pos; [lra|left; apply Rinv_0_lt_compat; lra]).
    assert (X : Vi^2 * f^2 + V0^2 * gsfc^2 = (Vi^2 + V0^2 * (gsfc / f)^2) * f^2) by (field; lra). rewrite X. field. split; [lra|]. enough (NZ : Vi^2 * f^2 + V0^2 * gsfc^2 <> 0) by (intros Z; apply NZ; rewrite <- Z; ring).
    assert (0 < Vi^2 * f^2) by (apply Rmult_lt_0_compat; [lra|apply pow_lt; lra]). assert (0 < V0^2 * gsfc^2) by (apply Rmult_lt_0_compat; [lra|apply pow_lt; lra]). lra. }
  split; [|split].
  - intros f f' Hf Hff. apply gsv_mono; [apply pow2_ge_0|]. apply pow_incr. split.
    + apply Rmult_le_pos; [lra|left; apply Rinv_0_lt_compat; lra].
    + apply Rmult_le_compat_l; [lra|]. apply inv_le; lra.
  - intros eps Heps.
    (* V^2 <= V0^2 + d * Vi^2/(Vi^2+V0^2 a) < V0^2 + d*Vi^2/(V0^2 a) *)
    set (T := 1 + (Vi^2) * Vi^2 / (V0^2 * (2 * V0 * eps))).
    assert (HT : 0 < T). { unfold T. assert (0 < Vi^2 * Vi^2 / (V0^2 * (2 * V0 * eps))); [|lra]. apply Rdiv_lt_0_compat; repeat apply Rmult_lt_0_compat; lra. }
    exists (gsfc / sqrt T). split; [apply Rdiv_lt_0_compat; [lra|apply sqrt_lt_R0; auto]|].
    intros f (Hf & HfT). assert (ST := sqrt_lt_R0 T HT).
    assert (A : T < (gsfc / f)^2).
    { rewrite <- (pow2_sqrt T) by lra. assert (sqrt T < gsfc / f).
      { apply lt_div_iff; [lra|]. apply lt_div_iff in HfT; [|lra]. lra. }
      assert (X := Rmult_le_0_lt_compat (sqrt T) (gsfc / f) (sqrt T) (gsfc / f) ltac:(lra) ltac:(lra) H H). lra. }
    set (a := (gsfc / f)^2) in *.
    assert (0 < V0^2 * a) by (apply Rmult_lt_0_compat; lra).
    unfold gsv. rewrite gsv_form by lra.
    apply Rlt_le_trans with (sqrt ((V0 + eps)^2)); [|rewrite sqrt_pow2 by lra; lra].
    apply sqrt_lt_1_alt. split.
    { assert (0 <= (Vi ^ 2 - V0 ^ 2) * (Vi ^ 2 / (Vi ^ 2 + V0 ^ 2 * a))); [|lra].
      apply Rmult_le_pos; [lra|]. apply Rmult_le_pos; [lra|left; apply Rinv_0_lt_compat; lra]. }
    assert (Y : (Vi^2 - V0^2) * (Vi^2 / (Vi^2 + V0^2 * a)) < 2 * V0 * eps).
    { replace ((Vi^2 - V0^2) * (Vi^2 / (Vi^2 + V0^2 * a))) with (((Vi^2 - V0^2) * Vi^2) / (Vi^2 + V0^2 * a)) by (field; lra).
      apply div_lt_iff; [lra|].
      assert (E : Vi^2 * Vi^2 = (T - 1) * (V0^2 * (2 * V0 * eps))) by (unfold T; field; repeat split; lra).
      assert (0 < 2 * V0 * eps) by (repeat apply Rmult_lt_0_compat; lra).
      assert (0 < V0^2 * (2 * V0 * eps)) by (apply Rmult_lt_0_compat; lra).
      assert ((T - 1) * (V0^2 * (2 * V0 * eps)) < a * (V0^2 * (2 * V0 * eps))) by (apply Rmult_lt_compat_r; lra).
      assert ((Vi^2 - V0^2) * Vi^2 <= Vi^2 * Vi^2) by (apply Rmult_le_compat_r; lra).
      assert (0 < (2 * V0 * eps) * Vi^2) by (apply Rmult_lt_0_compat; lra). 
      replace (2 * V0 * eps * (Vi^2 + V0^2 * a)) with (2 * V0 * eps * Vi^2 + a * (V0^2 * (2 * V0 * eps))) by ring. lra. }
    replace ((V0 + eps)^2) with (V0^2 + 2 * V0 * eps + eps^2) by ring. assert (0 < eps^2) by (apply pow_lt; lra). lra.
  - intros eps Heps. 
    set (T := Vi * eps / (V0^2) ).
    assert (HT : 0 < T) by (unfold T; apply Rdiv_lt_0_compat; [apply Rmult_lt_0_compat; lra|lra]).
    assert (ST := sqrt_lt_R0 T HT).
    exists (gsfc / sqrt T). split; [apply Rdiv_lt_0_compat; lra|]. intros f Hf.
    assert (F0 : 0 < gsfc / sqrt T) by (apply Rdiv_lt_0_compat; lra).
    assert (A : (gsfc / f)^2 < T).
    { rewrite <- (pow2_sqrt T) by lra. 
      assert (0 < gsfc / f) by (apply Rdiv_lt_0_compat; lra).
      assert (gsfc / f < sqrt T).
      { apply div_lt_iff; [lra|]. apply div_lt_iff in Hf; [|lra]. lra. }
      assert (X := Rmult_le_0_lt_compat (gsfc / f) (sqrt T) (gsfc / f) (sqrt T) ltac:(lra) ltac:(lra) H1 H1). lra. }
    assert (Ha := pow2_ge_0 (gsfc / f)). set (a := (gsfc / f)^2) in *.
    destruct (Rlt_or_le (Vi - eps) 0) as [Hn|Hn].
    { assert (X := sqrt_pos ((Vi ^ 4 + V0 ^ 4 * a) / (Vi ^ 2 + V0 ^ 2 * a))). unfold gsv. lra. }
    assert (0 <= V0^2 * a) by (apply Rmult_le_pos; lra).
    unfold gsv. rewrite gsv_form by lra.
    apply Rle_lt_trans with (sqrt ((Vi - eps)^2)); [rewrite sqrt_pow2 by lra; lra|].
    apply sqrt_lt_1_alt. split; [apply pow2_ge_0|].
    replace (V0^2 + (Vi^2 - V0^2) * (Vi^2 / (Vi^2 + V0^2 * a))) with (Vi^2 - (Vi^2 - V0^2) * (V0^2 * a) / (Vi^2 + V0^2 * a)) by (field; lra).
    assert (Y : (Vi^2 - V0^2) * (V0^2 * a) / (Vi^2 + V0^2 * a) < Vi * eps).
    { apply div_lt_iff; [lra|].
      assert (E : V0^2 * T = Vi * eps) by (unfold T; field; lra).
      assert (V0^2 * a < V0^2 * T) by (apply Rmult_lt_compat_l; lra).
      assert (0 < Vi * eps) by (apply Rmult_lt_0_compat; lra).
      assert ((Vi^2 - V0^2) * (V0^2 * a) <= Vi^2 * (V0^2 * a)) by (apply Rmult_le_compat_r; lra).
      assert (Vi^2 * (V0^2 * a) < Vi^2 * (Vi * eps)) by (apply Rmult_lt_compat_l; lra).
      assert (0 <= Vi * eps * (V0^2 * a)) by (apply Rmult_le_pos; lra). lra. }
    replace ((Vi - eps)^2) with (Vi^2 - Vi * eps - eps * (Vi - eps)) by ring.
    assert (0 <= eps * (Vi - eps)) by (apply Rmult_le_pos; lra). lra.
Qed.
End GSLF.
Lemma GSLF_zero V0 Vi phi rf kap eta : 0 < rf -> 0 < kap ->
  Fluid_Geertsma_Smit_LF PyFloat (Fin V0) (Fin Vi) (Fin 0) (Fin phi) (Fin rf) (Fin kap) (Fin eta) = Raise ZeroDivisionError.
Proof.
  intros. assert (X := PI_RGT_0). assert (0 < 2 * PI * rf * kap) by (apply Rmult_lt_0_compat; [apply Rmult_lt_0_compat; lra|lra]).
  unfold Fluid_Geertsma_Smit_LF. repeat (first [fl1 | rewrite fdiv_fin by (assumption || lra)]; cbv beta).
  rewrite fdiv_zero_py_fin. reflexivity.
Qed.
