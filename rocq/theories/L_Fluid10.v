(** * Fluid.py: low- and high-frequency limits of the White-Dutta-Ode model. *)
From Verif Require Import Fl Cx M_Utils M_EM M_Anis M_Fluid L_EM8 Spec Spec2 RealLemmas L_Utils L_Anis L_Fluid1 L_Fluid4 L_Fluid5 L_Fluid6 L_Fluid9.
Open Scope R_scope.

Definition pos (u : R) : Prop := 0 < u.
Lemma lim_comp (F G : R -> R) D l : limit1_in G D 0 0 -> (forall x, D x -> pos (G x)) -> limit1_in F pos l 0 -> limit1_in (fun x => F (G x)) D l 0.
Proof.
  intros HG HP HF eps He. destruct (HF eps He) as (d & Hd & H). destruct (HG d Hd) as (e & He' & H'). exists e. split; [exact He'|].
  intros x (Dx & Hx). apply H. split; [apply HP; exact Dx|apply H'; auto].
Qed.
Lemma lim_comp_cont (F G : R -> R) D l x0 : limit1_in G D l x0 -> continuity_pt F l -> limit1_in (fun x => F (G x)) D (F l) x0.
Proof.
  intros HG HF eps He. destruct (HF eps He) as (d & Hd & H). destruct (HG d Hd) as (e & He' & H'). exists e. split; [exact He'|].
  intros x Hx. destruct (Req_dec l (G x)) as [<-|N]; [unfold dist; cbn; unfold R_dist; rewrite Rminus_diag_eq, Rabs_R0 by reflexivity; lra|].
  apply H. split; [split; [exact I|exact N]|apply H'; exact Hx].
Qed.
(** If F(0) = 0 and F'(t)/t^n tends to l then F(t)/t^(n+1) tends to l/(n+1). *)
Lemma lim_integrate (F F' : R -> R) n l : F 0 = 0 -> (forall c, derivable_pt_lim F c (F' c)) ->
  limit1_in (fun t => F' t / t^n) pos l 0 -> limit1_in (fun t => F t / t^(S n)) pos (l / INR (S n)) 0.
Proof.
  intros F0 D H eps He. destruct (H (eps / 2) ltac:(lra)) as (d & Hd & Hl). exists d. split; [exact Hd|]. intros t (Ht & Hd'). unfold pos in Ht.
  unfold dist in *. cbn in Hd', Hl |- *. unfold R_dist in *. rewrite Rminus_0_r in Hd'. assert (At : Rabs t = t) by (apply Rabs_right; lra). rewrite At in Hd'.
  set (k := INR (S n)). assert (Hk : 0 < k) by (apply lt_0_INR; lia).
  set (Hf := fun s => F s - l / k * s^(S n)).
  assert (DH : forall c, derivable_pt_lim Hf c (F' c - l * c^n)).
  { intros c. unfold Hf. apply (dpl_eq _ _ (F' c - (l / k) * (INR (S n) * c^n))); [|fold k; field; lra].
    apply (derivable_pt_lim_minus F (fun s => l / k * s^(S n))); [apply D|]. apply (derivable_pt_lim_scal (fun s => s^(S n)) (l / k)). apply (derivable_pt_lim_pow c (S n)). }
  destruct (MVT_cor2 Hf (fun c => F' c - l * c^n) 0 t Ht) as (c & E & Hc); [intros; apply DH|].
  assert (H0 : Hf 0 = 0) by (unfold Hf; rewrite F0; rewrite pow_i by lia; ring). rewrite H0, !Rminus_0_r in E.
  assert (Pc : 0 < c^n) by (apply pow_lt; lra). assert (Pt : 0 < t^(S n)) by (apply pow_lt; lra).
  assert (Bc : Rabs (F' c - l * c^n) <= eps / 2 * t^n).
  { assert (X : Rabs (F' c / c^n - l) < eps / 2). { apply Hl. split; [unfold pos; lra|]. rewrite Rminus_0_r, Rabs_right by lra. lra. }
    replace (F' c - l * c^n) with ((F' c / c^n - l) * c^n) by (field; lra). rewrite Rabs_mult, (Rabs_right (c^n)) by lra.
    assert (c^n <= t^n) by (apply pow_incr; lra). apply Rmult_le_compat; [apply Rabs_pos|lra|lra|lra]. }
  change (Rabs (F t / t^(S n) - l / k) < eps). replace (F t / t^(S n) - l / k) with (Hf t / t^(S n)).
  2:{ unfold Hf. cbn [pow]. field. repeat split; try (apply pow_nonzero; lra); lra. }
  rewrite E. unfold Rdiv. rewrite !Rabs_mult, Rabs_inv, (Rabs_right (t^(S n))), At by lra.
  apply Rle_lt_trans with (eps / 2 * t^n * t * / t^(S n)).
  - apply Rmult_le_compat_r; [apply Rlt_le, Rinv_0_lt_compat; auto|]. apply Rmult_le_compat_r; lra.
  - replace (eps / 2 * t^n * t * / t^(S n)) with (eps / 2); [lra|]. cbn [pow]. field. repeat split; try (apply pow_nonzero; lra); lra.
Qed.
Lemma pos_id : limit1_in (fun u => u) pos 0 0. Proof. apply lim_id. Qed.
Lemma l_cc : limit1_in (fun t => (cosh t + cos t) / t^0) pos 2 0.
Proof.
  eapply lim_ext with (fun t => cosh t + cos t); [|intros; cbn; field].
  eapply lim_eq; [apply limit_plus; [apply (lim_cont cosh)|apply (lim_cont cos)]|].
  - apply derivable_continuous_pt. exists (sinh 0). apply derivable_pt_lim_cosh.
  - apply continuity_cos.
  - rewrite cosh_0, cos_0. ring.
Qed.
Lemma l_ssp : limit1_in (fun t => (sinh t + sin t) / t^1) pos 2 0.
Proof.
  eapply lim_eq; [apply (lim_integrate (fun t => sinh t + sin t) (fun t => cosh t + cos t) 0 2)|cbn; field].
  - rewrite sinh_0, sin_0. ring.
  - intros c. change (fun t => sinh t + sin t) with (plus_fct sinh sin). dl.
  - apply l_cc.
Qed.
Lemma l_ccm : limit1_in (fun t => (cosh t - cos t) / t^2) pos 1 0.
Proof.
  eapply lim_eq; [apply (lim_integrate (fun t => cosh t - cos t) (fun t => sinh t + sin t) 1 2)|cbn; field].
  - rewrite cosh_0, cos_0. ring.
  - intros c. change (fun t => cosh t - cos t) with (minus_fct cosh cos). eapply dpl_eq; [dl|]. ring.
  - apply l_ssp.
Qed.
Lemma l_ssm : limit1_in (fun t => (sinh t - sin t) / t^3) pos (1/3) 0.
Proof.
  eapply lim_eq; [apply (lim_integrate (fun t => sinh t - sin t) (fun t => cosh t - cos t) 2 1)|cbn; field].
  - rewrite sinh_0, sin_0. ring.
  - intros c. change (fun t => sinh t - sin t) with (minus_fct sinh sin). dl.
  - apply l_ccm.
Qed.
Lemma l_wf1 : limit1_in (fun t => wf1 t / t^5) pos (1/15) 0.
Proof.
  eapply lim_eq; [apply (lim_integrate wf1 (fun c => c * (sinh c - sin c)) 4 (1/3))|cbn; field].
  - unfold wf1. rewrite sinh_0, sin_0. ring.
  - apply wf1_deriv.
  - eapply lim_ext; [apply l_ssm|]. intros x Hx. unfold pos in Hx. cbv beta. field. lra.
Qed.
Lemma l_wf : limit1_in (fun t => wf t / t^6) pos (1/180) 0.
Proof.
  eapply lim_eq; [apply (lim_integrate wf (fun c => wf1 c / 2) 5 (1/30))|cbn; field].
  - unfold wf. rewrite sinh_0, sin_0, cosh_0, cos_0. field.
  - apply wf_deriv.
  - eapply lim_eq; [eapply lim_ext with (fun x => 1/2 * (wf1 x / x^5)); [apply limit_mul; [apply lim_cst|apply l_wf1]|]|field]. intros x Hx. unfold pos in Hx. cbv beta. field. lra.
Qed.
Lemma l_wk : limit1_in (fun t => wk t / t^6) pos (1/72) 0.
Proof.
  eapply lim_eq; [apply (lim_integrate wk (fun c => c^2 / 4 * (sinh c - sin c)) 5 (1/12))|cbn; field].
  - apply wk_0.
  - apply wk_deriv.
  - eapply lim_eq; [eapply lim_ext with (fun x => 1/4 * ((sinh x - sin x) / x^3)); [apply limit_mul; [apply lim_cst|apply l_ssm]|]|field]. intros x Hx. unfold pos in Hx. cbv beta. field. lra.
Qed.
Lemma l_scale (F : R -> R) n l k : 0 < k -> limit1_in (fun t => F t / t^n) pos l 0 -> limit1_in (fun u => F (k * u) / u^n) pos (l * k^n) 0.
Proof.
  intros Hk H. apply lim_ext with (fun u => F (k * u) / (k * u)^n * k^n).
  - apply limit_mul; [|apply lim_cst]. apply (lim_comp (fun t => F t / t^n) (fun u => k * u)); [|intros x Hx; unfold pos in *; apply Rmult_lt_0_compat; auto|exact H].
    eapply lim_eq; [apply limit_mul; [apply lim_cst|apply pos_id]|ring].
  - intros x Hx. unfold pos in Hx. rewrite Rpow_mult_distr. field. split; apply pow_nonzero; lra.
Qed.
Lemma l_z1 : limit1_in (fun X => wz1i X * X^2) pos (3/2) 0 /\ limit1_in (fun X => wz1r X * X^2) pos 0 0.
Proof.
  assert (C := l_scale (fun t => cosh t - cos t) 2 1 2 ltac:(lra) l_ccm). assert (S := l_scale (fun t => sinh t - sin t) 3 _ 2 ltac:(lra) l_ssm).
  assert (W := l_scale wf 6 _ 2 ltac:(lra) l_wf). assert (I := pos_id). cbv beta in C, S.
  set (cc := fun u => (cosh (2 * u) - cos (2 * u)) / u^2) in *. set (ss := fun u => (sinh (2 * u) - sin (2 * u)) / u^3) in *. set (ww := fun u => wf (2 * u) / u^6) in *.
  assert (E : forall X, pos X -> wn1 X = X^8 * (ww X^2 * X^4 + ss X^2)). { intros X HX. unfold pos in HX. unfold wn1, ww, ss. field. lra. }
  assert (P : forall X, pos X -> 0 < ww X^2 * X^4 + ss X^2).
  { intros X HX. unfold pos in HX. assert (X1 := wn1_pos X HX). rewrite E in X1 by auto. assert (0 < X^8) by (apply pow_lt; auto). nra. }
  split.
  - apply lim_ext with (fun X => cc X * ss X / (ww X^2 * X^4 + ss X^2)).
    + eapply lim_eq; [apply lim_div; [apply limit_mul; [exact C|exact S]|apply limit_plus; [apply limit_mul; [apply lim_pow; exact W|apply lim_pow; exact I]|apply lim_pow; exact S]|lra]|field].
    + intros X HX. unfold wz1i. assert (Q := P X HX). rewrite E by auto. unfold pos in HX. replace (cosh (2 * X) - cos (2 * X)) with (cc X * X^2) by (unfold cc; field; lra).
      replace (sinh (2 * X) - sin (2 * X)) with (ss X * X^3) by (unfold ss; field; lra). set (q := _ + _) in *. field. lra.
  - apply lim_ext with (fun X => cc X * ww X * X^2 / (ww X^2 * X^4 + ss X^2)).
    + eapply lim_eq; [apply lim_div; [apply limit_mul; [apply limit_mul; [exact C|exact W]|apply lim_pow; exact I]|apply limit_plus; [apply limit_mul; [apply lim_pow; exact W|apply lim_pow; exact I]|apply lim_pow; exact S]|lra]|field].
    + intros X HX. unfold wz1r. assert (Q := P X HX). rewrite E by auto. unfold pos in HX. replace (cosh (2 * X) - cos (2 * X)) with (cc X * X^2) by (unfold cc; field; lra).
      replace (wf (2 * X)) with (ww X * X^6) by (unfold ww; field; lra). set (q := _ + _) in *. field. lra.
Qed.
Lemma l_z2 a b : 0 < a < b -> limit1_in (fun u => wz2i (u * a) (u * b) * u^2) pos (3/2 * a / (b^3 - a^3)) 0 /\ limit1_in (fun u => wz2r (u * a) (u * b) * u^2) pos 0 0.
Proof.
  intros Hab. set (d := 2 * (b - a)). assert (Hd : 0 < d) by (unfold d; lra).
  assert (B3 : 0 < b^3 - a^3). { replace (b^3 - a^3) with ((b - a) * (b^2 + a * b + a^2)) by ring. apply Rmult_lt_0_compat; nra. }
  assert (C := l_scale (fun t => cosh t - cos t) 2 1 d Hd l_ccm). assert (S := l_scale (fun t => sinh t - sin t) 3 _ d Hd l_ssm). assert (Sp := l_scale (fun t => sinh t + sin t) 1 _ d Hd l_ssp).
  assert (W := l_scale wf 6 _ d Hd l_wf). assert (W1 := l_scale wf1 5 _ d Hd l_wf1). assert (K := l_scale wk 6 _ d Hd l_wk). assert (I := pos_id). cbv beta in C, S, Sp.
  set (cc := fun u => (cosh (d * u) - cos (d * u)) / u^2) in *. set (ss := fun u => (sinh (d * u) - sin (d * u)) / u^3) in *. set (sp := fun u => (sinh (d * u) + sin (d * u)) / u^1) in *.
  set (ww := fun u => wf (d * u) / u^6) in *. set (w1 := fun u => wf1 (d * u) / u^5) in *. set (kk := fun u => wk (d * u) / u^6) in *.
  assert (Et : forall u, 2 * (u * b - u * a) = d * u) by (intros; unfold d; ring).
  assert (Ec : forall u, pos u -> cosh (d * u) - cos (d * u) = cc u * u^2) by (intros u Hu; unfold pos in Hu; unfold cc; field; lra).
  assert (Es : forall u, pos u -> sinh (d * u) - sin (d * u) = ss u * u^3) by (intros u Hu; unfold pos in Hu; unfold ss; field; lra).
  assert (Ep : forall u, pos u -> sinh (d * u) + sin (d * u) = sp u * u) by (intros u Hu; unfold pos in Hu; unfold sp; field; lra).
  assert (Ew : forall u, pos u -> wf (d * u) = ww u * u^6) by (intros u Hu; unfold pos in Hu; unfold ww; field; lra).
  assert (E1 : forall u, pos u -> wf1 (d * u) = w1 u * u^5) by (intros u Hu; unfold pos in Hu; unfold w1; field; lra).
  assert (Ek : forall u, pos u -> wk (d * u) = kk u * u^6) by (intros u Hu; unfold pos in Hu; unfold kk; field; lra).
  set (n := fun u => kk u + 2 * a^2 * b^2 * cc u + d * a * b * ss u).
  assert (Ln : limit1_in n pos (8/9 * (b^3 - a^3)^2) 0).
  { unfold n. eapply lim_eq; [apply limit_plus; [apply limit_plus; [exact K|apply limit_mul; [apply lim_cst|exact C]]|apply limit_mul; [apply lim_cst|exact S]]|]. unfold d. field. }
  assert (En : forall u, pos u -> wn2 (u * a) (u * b) = u^6 * n u).
  { intros u Hu. unfold wn2. cbv zeta. rewrite Et, Ek, Ec, Es by auto. unfold n. ring. }
  assert (P : forall u, pos u -> 0 < n u).
  { intros u Hu. assert (Hu' := Hu). unfold pos in Hu'. assert (X := wn2_pos (u * a) (u * b) ltac:(apply Rmult_lt_0_compat; lra) ltac:(apply Rmult_lt_compat_l; lra)).
    rewrite En in X by auto. assert (0 < u^6) by (apply pow_lt; auto). nra. }
  assert (L0 : 8/9 * (b^3 - a^3)^2 <> 0) by (assert (0 < (b^3 - a^3)^2) by (apply pow_lt; auto); lra).
  split.
  - apply lim_ext with (fun u => a * (ss u / 2 + b * (b * sp u - cc u)) / n u).
    + eapply lim_eq; [apply lim_div; [apply limit_mul; [apply lim_cst|apply limit_plus; [apply lim_div; [exact S|apply lim_cst|lra]|apply limit_mul; [apply lim_cst|apply limit_minus; [apply limit_mul; [apply lim_cst|exact Sp]|exact C]]]]|exact Ln|exact L0]|].
      unfold d. field. lra.
    + intros u Hu. unfold wz2i. cbv zeta. rewrite En, Et, Ec, Es, Ep by auto. assert (Q := P u Hu). unfold pos in Hu. field. lra.
  - apply lim_ext with (fun u => (a * b^2 * ss u + b / 2 * w1 u - ww u / 2) * u^2 / n u).
    + eapply lim_eq; [apply lim_div; [apply limit_mul; [apply limit_minus; [apply limit_plus; [apply limit_mul; [apply lim_cst|exact S]|apply limit_mul; [apply lim_cst|exact W1]]|apply lim_div; [exact W|apply lim_cst|lra]]|apply lim_pow; exact I]|exact Ln|exact L0]|].
      field. lra.
    + intros u Hu. unfold wz2r. cbv zeta. rewrite En, Et, Ew, Es, E1 by auto. assert (Q := P u Hu). unfold pos in Hu. field. lra.
Qed.

(** ** Low frequencies *)
Section Low.
Variables (Kd Gd K0 phi r0 rf1 rf2 Kf1 Kf2 eta1 eta2 kap a sg : R).
Hypotheses (HK : 0 < K0) (HKf1 : 0 < Kf1 < K0) (HKf2 : 0 < Kf2 < K0) (Hd : 0 < Kd < K0) (HG : 0 <= Gd) (Hp : 0 < phi <= 1)
  (Hs : 0 < sg < 1) (Hk : 0 < kap) (Hrho : 0 < (1 - phi) * r0 + phi * sg * rf1 + phi * (1 - sg) * rf2) (He1 : 0 < eta1) (He2 : 0 < eta2)
  (Ha : 0 < a).
Let k1 := gK Kd K0 Kf1 phi.
Let k2 := gK Kd K0 Kf2 phi.
Let g1 := gB Kd K0 Kf1 phi.
Let g2 := gB Kd K0 Kf2 phi.
Let bt := 1 - Kd / K0.
Let KE1 := Kd / (k1 * g1).
Let KE2 := Kd / (k2 * g2).
Let b := a / Rpower sg (1/3).
Let KR := wKR Kd Gd K0 phi Kf1 Kf2 eta1 eta2 kap a sg.
Let KI := wKI Kd Gd K0 phi Kf1 Kf2 eta1 eta2 kap a sg.
Let c := wc Kd Gd K0 phi Kf1 Kf2 a sg.
Let Ki := wKinf Kd Gd K0 phi Kf1 Kf2 sg.
Let G0 := 3 * KE1 / a + 3 * KE2 * a^2 / (b^3 - a^3).
Definition wKlow := Kd + bt^2 / (sg * g1 + (1 - sg) * g2).
Lemma facts : 0 < g1 /\ 0 < g2 /\ Kd < k1 <= K0 /\ Kd < k2 <= K0 /\ 0 < bt /\ k1 = Kd + bt^2 / g1 /\ k2 = Kd + bt^2 / g2 /\ 0 < KE1 /\ 0 < KE2.
Proof. apply w_facts; auto. Qed.
Lemma bfacts : a < b /\ b^3 = a^3 / sg /\ 0 < b^3 - a^3.
Proof.
  destruct (w_b a sg Hs Ha) as (A & B). fold b in A, B. split; [exact A|]. split; [exact B|].
  replace (b^3 - a^3) with ((b - a) * (b^2 + a * b + a^2)) by ring. apply Rmult_lt_0_compat; nra.
Qed.
Lemma low_identity : Ki * G0 = wKlow * (G0 + c).
Proof.
  destruct facts as (G1 & G2 & L1 & L2 & B & E1 & E2 & P1 & P2). destruct bfacts as (_ & B3 & _).
  destruct (w_D Kd Gd K0 phi Kf1 Kf2 sg HK HKf1 HKf2 Hd HG Hp Hs) as (D1 & D2 & _). fold k1 k2 in D1, D2.
  unfold Ki, wKlow, G0, c, wc. rewrite wnum_form by auto. unfold wKinf. fold k1 k2 g1 g2 bt b. rewrite B3. unfold KE1, KE2.
  assert (0 < bt^2) by (apply pow_lt; auto).
  clearbody k1 k2 bt g1 g2.
  assert (F1 : 0 < Kd * g1 + bt^2) by (assert (0 < Kd * g1) by (apply Rmult_lt_0_compat; lra); lra).
  assert (F2 : 0 < Kd * g2 + bt^2) by (assert (0 < Kd * g2) by (apply Rmult_lt_0_compat; lra); lra).
  assert (S : 0 < sg * g1 + (1 - sg) * g2) by nra.
  set (D := k2 * (3 * k1 + 4 * Gd) + 4 * Gd * (k1 - k2) * sg) in *. set (E := 3 * k1 + 4 * Gd - 3 * (k1 - k2) * sg) in *.
  assert (KD : Kd <> 0) by lra. assert (KA : a <> 0) by lra.
  replace (a^3 / sg - a^3) with (a^3 * (1 - sg) / sg) by (field; lra).
  apply Rmult_eq_reg_r with (a / (3 * Kd)); [|apply Rmult_integral_contrapositive_currified; [lra|apply Rinv_neq_0_compat; lra]].
  transitivity (D / E * (/ (k1 * g1) + sg / ((1 - sg) * (k2 * g2)))); [field; repeat split; lra|].
  match goal with |- _ = ?k * _ * _ => transitivity (k * ((/ (k1 * g1) + sg / ((1 - sg) * (k2 * g2))) + sg * bt^2 * (4 * Gd + 3 * Kd) * (g1 - g2)^2 / (E * (g1 * g2) * (k1 * g1 * (k2 * g2)))));
    [|field; repeat split; lra] end.
  assert (X1 : k1 * g1 = Kd * g1 + bt^2) by (rewrite E1; field; lra). assert (X2 : k2 * g2 = Kd * g2 + bt^2) by (rewrite E2; field; lra).
  apply Rmult_eq_reg_r with E; [|lra].
  transitivity (D * (/ (k1 * g1) + sg / ((1 - sg) * (k2 * g2)))); [field; repeat split; lra|].
  match goal with |- _ = ?k * (?x + _) * _ => transitivity (k * (x * E + sg * bt^2 * (4 * Gd + 3 * Kd) * (g1 - g2)^2 / ((g1 * g2) * (k1 * g1 * (k2 * g2)))));
    [|field; repeat split; lra] end.
  unfold D, E. rewrite X1, X2. rewrite E1, E2. set (B2 := bt^2) in *. clearbody B2. field. repeat split; lra.
Qed.
Lemma lim_wx eta KE : 0 < eta -> 0 < KE -> limit1_in (fun f => wx kap eta KE f) pos 0 0.
Proof.
  intros H1 H2. unfold wx. assert (Q : 0 < kap * KE) by (apply Rmult_lt_0_compat; auto).
  eapply lim_eq; [apply (lim_comp_cont sqrt (fun f => 2 * PI * f * eta / (kap * KE) / 2) pos 0 0)|apply sqrt_0].
  - apply lim_ext with (fun f => (2 * PI * eta / (kap * KE) / 2) * f); [|intros; field; lra]. eapply lim_eq; [apply limit_mul; [apply lim_cst|apply pos_id]|ring].
  - apply continuity_pt_sqrt. lra.
Qed.
Lemma wx_sq eta KE f : 0 < eta -> 0 < KE -> 0 < f -> 2 * PI * f * (eta * a / kap) = 2 * KE * a * wx kap eta KE f^2.
Proof.
  intros H1 H2 H3. unfold wx. assert (P := PI_RGT_0). rewrite pow2_sqrt; [field; lra|].
  apply Rlt_le. apply Rmult_lt_0_compat; [|lra]. apply Rdiv_lt_0_compat; [|apply Rmult_lt_0_compat; auto]. apply Rmult_lt_0_compat; [|auto]. apply Rmult_lt_0_compat; lra.
Qed.
Lemma lim_wg : limit1_in (wg1 Kd K0 phi Kf1 Kf2 eta1 eta2 kap a sg) pos G0 0 /\ limit1_in (wg2 Kd K0 phi Kf1 Kf2 eta1 eta2 kap a sg) pos 0 0.
Proof.
  destruct facts as (G1 & G2 & L1 & L2 & B & E1 & E2 & P1 & P2). destruct bfacts as (Hb & _ & B3).
  destruct l_z1 as (A1 & A2). destruct (l_z2 a b ltac:(lra)) as (A3 & A4).
  assert (X1 := lim_wx eta1 KE1 He1 P1). assert (X2 := lim_wx eta2 KE2 He2 P2).
  assert (Y1 : forall f, pos f -> 0 < wx kap eta1 KE1 f) by (intros; apply wx_pos; auto).
  assert (Y2 : forall f, pos f -> 0 < wx kap eta2 KE2 f) by (intros; apply wx_pos; auto).
  assert (X1a : limit1_in (fun f => wx kap eta1 KE1 f * a) pos 0 0) by (eapply lim_eq; [apply limit_mul; [exact X1|apply lim_cst]|ring]).
  assert (Y1a : forall f, pos f -> pos (wx kap eta1 KE1 f * a)) by (intros f Hf; apply Rmult_lt_0_compat; auto).
  assert (C1 := lim_comp _ _ _ _ X1a Y1a A1). assert (C2 := lim_comp _ _ _ _ X1a Y1a A2).
  assert (C3 := lim_comp _ _ _ _ X2 Y2 A3). assert (C4 := lim_comp _ _ _ _ X2 Y2 A4). cbv beta in C1, C2, C3, C4.
  split.
  - eapply lim_ext.
    + eapply lim_eq; [apply limit_plus; [apply limit_mul; [apply (lim_cst _ (2 * KE1 / a))|exact C1]|apply limit_mul; [apply (lim_cst _ (2 * KE2 * a))|exact C3]]|].
      unfold G0. field. lra.
    + intros f Hf. cbv beta. unfold wg1. fold k1 k2 g1 g2 b. fold KE1 KE2.
      match goal with |- _ = 2 * PI * f * (?p * ?z + ?q * ?y) => replace (2 * PI * f * (p * z + q * y)) with (2 * PI * f * p * z + 2 * PI * f * q * y) by ring end.
      rewrite (wx_sq eta1 KE1), (wx_sq eta2 KE2) by auto. field. lra.
  - eapply lim_ext.
    + eapply lim_eq; [apply limit_plus; [apply limit_mul; [apply (lim_cst _ (2 * KE1 / a))|exact C2]|apply limit_mul; [apply (lim_cst _ (2 * KE2 * a))|exact C4]]|ring].
    + intros f Hf. cbv beta. unfold wg2. fold k1 k2 g1 g2 b. fold KE1 KE2.
      match goal with |- _ = 2 * PI * f * (?p * ?z + ?q * ?y) => replace (2 * PI * f * (p * z + q * y)) with (2 * PI * f * p * z + 2 * PI * f * q * y) by ring end.
      rewrite (wx_sq eta1 KE1), (wx_sq eta2 KE2) by auto. field. lra.
Qed.
Lemma G0_pos : 0 < G0.
Proof.
  destruct facts as (_ & _ & _ & _ & _ & _ & _ & P1 & P2). destruct bfacts as (Hb & _ & B3). unfold G0.
  apply Rplus_lt_0_compat; apply Rdiv_lt_0_compat; auto; [lra|]. apply Rmult_lt_0_compat; [lra|apply pow_lt; auto].
Qed.
Lemma lim_wK_low : limit1_in KR pos wKlow 0 /\ limit1_in KI pos 0 0.
Proof.
  destruct lim_wg as (L1 & L2). assert (G := G0_pos). destruct (wc_pos Kd Gd K0 phi Kf1 Kf2 a sg) as (_ & C); auto. fold c in C.
  assert (N : (G0 + c)^2 + 0^2 <> 0) by (assert (0 < (G0 + c)^2) by (apply pow_lt; lra); lra).
  assert (M : limit1_in (fun f => (wg1 Kd K0 phi Kf1 Kf2 eta1 eta2 kap a sg f + c)^2 + wg2 Kd K0 phi Kf1 Kf2 eta1 eta2 kap a sg f^2) pos ((G0 + c)^2 + 0^2) 0).
  { apply limit_plus; apply lim_pow; [apply limit_plus; [exact L1|apply lim_cst]|exact L2]. }
  split.
  - eapply lim_eq; [unfold KR, wKR; fold c Ki; apply lim_div; [|exact M|exact N]|].
    + apply limit_mul; [apply lim_cst|]. apply limit_plus; [apply limit_plus; apply lim_pow; [exact L1|exact L2]|apply limit_mul; [apply lim_cst|exact L1]].
    + assert (I := low_identity). assert (wKlow = Ki * G0 / (G0 + c)) as -> by (rewrite I; field; lra). field. lra.
  - eapply lim_eq; [unfold KI, wKI; fold c Ki; apply lim_div; [|exact M|exact N]|].
    + apply limit_mul; [apply lim_cst|]. apply limit_mul; [apply lim_cst|exact L2].
    + unfold Rdiv; ring.
Qed.
End Low.

(** ** High frequencies *)
Lemma cosh_sinh t : 0 < t -> sinh t < cosh t <= sinh t + 1.
Proof.
  intros Ht. unfold sinh, cosh. assert (0 < exp (- t)) by apply exp_pos. assert (exp (- t) < 1) by (rewrite <- exp_0; apply exp_increasing; lra). lra.
Qed.
Lemma sinh_gt t : 0 < t -> t < sinh t.
Proof.
  intros Ht. assert (0 < sinh t - t); [|lra]. apply (pos_of_deriv (fun t => sinh t - t) (fun t => cosh t - 1)); auto.
  - rewrite sinh_0. ring.
  - intros c. change (fun t => sinh t - t) with (minus_fct sinh id). apply (derivable_pt_lim_minus sinh id); [apply derivable_pt_lim_sinh|apply derivable_pt_lim_id].
  - intros c Hc. assert (H := cosh_gt c Hc). lra.
Qed.
Lemma z1_high X : 4 <= X -> X / 64 <= wz1r X * X^2.
Proof.
  intros HX. assert (CS := cosh_sinh (2 * X) ltac:(lra)). assert (C1 := COS_bound (2 * X)). assert (S1 := SIN_bound (2 * X)).
  assert (SG : 8 <= sinh (2 * X)) by (assert (2 * X < sinh (2 * X)) by (apply sinh_gt; lra); lra).
  unfold wz1r, wn1, wf. set (S := sinh (2 * X)) in *. set (C := cosh (2 * X)) in *. set (s := sin (2 * X)) in *. set (k := cos (2 * X)) in *. clearbody S C s k.
  set (F := 2 * X / 2 * (S + s) - C + k). set (T := S - s).
  assert (XS : 0 < X * S) by (apply Rmult_lt_0_compat; lra).
  assert (F1 : X * S / 4 <= F). { unfold F. assert (X * 4 <= X * S) by (apply Rmult_le_compat_l; lra). assert (4 * S <= X * S) by (apply Rmult_le_compat_r; lra). assert (X * (-1) <= X * s) by (apply Rmult_le_compat_l; lra). lra. }
  assert (F2 : F <= 2 * (X * S)). { unfold F. assert (X * s <= X * 1) by (apply Rmult_le_compat_l; lra). assert (X * 1 <= X * S) by (apply Rmult_le_compat_l; lra). lra. }
  assert (T1 : 0 <= T <= 2 * S) by (unfold T; lra).
  assert (N : F^2 + X^2 * T^2 <= 8 * (X * S)^2).
  { assert (F^2 <= (2 * (X * S))^2) by (apply pow_incr; lra). assert (T^2 <= (2 * S)^2) by (apply pow_incr; lra). assert (X^2 * T^2 <= X^2 * (2 * S)^2) by (apply Rmult_le_compat_l; [apply pow2_ge_0|auto]). nra. }
  assert (N0 : 0 < F^2 + X^2 * T^2) by (assert (0 < F^2) by (apply pow_lt; lra); assert (0 <= X^2 * T^2) by (apply Rmult_le_pos; apply pow2_ge_0); lra).
  assert (M : S / 2 * (X * S / 4) <= (C - k) * F) by (apply Rmult_le_compat; lra).
  replace ((C - k) * F / (F^2 + X^2 * T^2) * X^2) with ((C - k) * F * X^2 / (F^2 + X^2 * T^2)) by (field; lra).
  apply le_div_iff; [exact N0|].
  apply Rle_trans with (X / 64 * (8 * (X * S)^2)); [apply Rmult_le_compat_l; lra|].
  apply Rle_trans with (S / 2 * (X * S / 4) * X^2); [right; field|]. apply Rmult_le_compat_r; [apply pow2_ge_0|exact M].
Qed.
Lemma lim_bound (F : R -> R) l M u0 : 0 < M -> 0 < u0 -> (forall u, 0 < u -> u < u0 -> Rabs (F u - l) <= M * sqrt u) -> limit1_in F pos l 0.
Proof.
  intros HM Hu H eps He. remember ((eps / M)^2) as q eqn:Eq. assert (Hq : 0 < q) by (rewrite Eq; apply pow_lt, Rdiv_lt_0_compat; auto). exists (Rmin u0 q).
  split; [apply Rmin_glb_lt; auto|]. intros u (Pu & D). unfold pos in Pu. unfold dist in *. cbn in D |- *. unfold R_dist in *. rewrite Rminus_0_r, Rabs_right in D by lra.
  assert (D1 := Rmin_l u0 q). assert (D2 := Rmin_r u0 q).
  apply Rle_lt_trans with (M * sqrt u); [apply H; lra|]. assert (sqrt u < eps / M).
  { rewrite <- (sqrt_pow2 (eps / M)) by (apply Rlt_le, Rdiv_lt_0_compat; auto). apply sqrt_lt_1_alt. rewrite <- Eq. lra. }
  apply Rlt_le_trans with (M * (eps / M)); [apply Rmult_lt_compat_l; auto|right; field; lra].
Qed.
Section High.
Variables (Kd Gd K0 phi r0 rf1 rf2 Kf1 Kf2 eta1 eta2 kap a sg : R).
Hypotheses (HK : 0 < K0) (HKf1 : 0 < Kf1 < K0) (HKf2 : 0 < Kf2 < K0) (Hd : 0 < Kd < K0) (HG : 0 <= Gd) (Hp : 0 < phi <= 1)
  (Hs : 0 < sg < 1) (Hk : 0 < kap) (He1 : 0 < eta1) (He2 : 0 < eta2) (Ha : 0 < a).
Let k1 := gK Kd K0 Kf1 phi.
Let k2 := gK Kd K0 Kf2 phi.
Let g1 := gB Kd K0 Kf1 phi.
Let g2 := gB Kd K0 Kf2 phi.
Let KE1 := Kd / (k1 * g1).
Let KE2 := Kd / (k2 * g2).
Let b := a / Rpower sg (1/3).
Let KR := wKR Kd Gd K0 phi Kf1 Kf2 eta1 eta2 kap a sg.
Let KI := wKI Kd Gd K0 phi Kf1 Kf2 eta1 eta2 kap a sg.
Let c := wc Kd Gd K0 phi Kf1 Kf2 a sg.
Let Ki := wKinf Kd Gd K0 phi Kf1 Kf2 sg.
Let h := a * sqrt (2 * PI * eta1 / (kap * KE1) / 2).
Lemma hill_identity : / (Ki + 4/3 * Gd) = sg / (k1 + 4/3 * Gd) + (1 - sg) / (k2 + 4/3 * Gd) /\ 0 < Ki.
Proof.
  destruct (w_facts Kd K0 phi Kf1 Kf2) as (G1 & G2 & L1 & L2 & _); auto. fold k1 k2 in L1, L2.
  destruct (w_D Kd Gd K0 phi Kf1 Kf2 sg HK HKf1 HKf2 Hd HG Hp Hs) as (D1 & D2 & _ & D3). split; [|exact D3]. unfold Ki in *. unfold wKinf in *. fold k1 k2 in D1, D2 |- *.
  assert (X : 0 < (k2 * (3 * k1 + 4 * Gd) + 4 * Gd * (k1 - k2) * sg) * 3 + 4 * Gd * (3 * k1 + 4 * Gd - 3 * (k1 - k2) * sg)).
  { assert (0 <= 4 * Gd * (3 * k1 + 4 * Gd - 3 * (k1 - k2) * sg)) by (apply Rmult_le_pos; lra). lra. }
  assert (Y : (k2 * (3 * k1 + 4 * Gd) + 4 * Gd * (k1 - k2) * sg) * 3 + 4 * Gd * (3 * k1 + 4 * Gd - 3 * (k1 - k2) * sg) = (3 * k1 + 4 * Gd) * (3 * k2 + 4 * Gd)) by ring.
  match goal with |- / (?x / ?y + ?z) = _ => replace (x / y + z) with ((3 * k1 + 4 * Gd) * (3 * k2 + 4 * Gd) / (3 * y)) by (rewrite <- Y; field; lra) end.
  field. repeat split; lra.
Qed.
Lemma h_pos : 0 < h.
Proof.
  destruct (w_facts Kd K0 phi Kf1 Kf2) as (_ & _ & _ & _ & _ & _ & _ & P1 & _); auto. fold k1 g1 in P1. fold KE1 in P1. assert (P := PI_RGT_0).
  unfold h. apply Rmult_lt_0_compat; [auto|]. apply sqrt_lt_R0. apply Rmult_lt_0_compat; [|lra]. apply Rdiv_lt_0_compat; [|apply Rmult_lt_0_compat; auto]. apply Rmult_lt_0_compat; lra.
Qed.
Lemma wx_high u : 0 < u -> wx kap eta1 KE1 (1 / u) * a = h / sqrt u.
Proof.
  destruct (w_facts Kd K0 phi Kf1 Kf2) as (_ & _ & _ & _ & _ & _ & _ & P1 & _); auto. fold k1 g1 in P1. fold KE1 in P1. assert (P := PI_RGT_0). intros Hu.
  unfold wx, h. assert (0 < sqrt u) by (apply sqrt_lt_R0; auto).
  replace (2 * PI * (1 / u) * eta1 / (kap * KE1) / 2) with (2 * PI * eta1 / (kap * KE1) / 2 / u) by (field; repeat split; lra).
  rewrite sqrt_div_alt by auto. field. lra.
Qed.
Lemma wg2_high u : 0 < u -> sqrt u <= h / 4 -> KE1 / (32 * a) * (h / sqrt u) <= wg2 Kd K0 phi Kf1 Kf2 eta1 eta2 kap a sg (1 / u).
Proof.
  destruct (w_facts Kd K0 phi Kf1 Kf2) as (G1 & G2 & L1 & L2 & _ & _ & _ & P1 & P2); auto. fold k1 k2 g1 g2 in P1, P2. fold KE1 in P1. fold KE2 in P2. assert (P := PI_RGT_0).
  intros Hu Hh. destruct (w_b a sg Hs Ha) as (Hb & _). fold b in Hb. assert (Hf : 0 < 1 / u) by (apply Rdiv_lt_0_compat; lra).
  assert (0 < sqrt u) by (apply sqrt_lt_R0; auto).
  assert (X4 : 4 <= h / sqrt u) by (apply le_div_iff; [auto|lra]).
  unfold wg2. fold k1 k2 g1 g2 b. fold KE1 KE2.
  match goal with |- _ <= 2 * PI * ?f * (?p * ?z + ?q * ?y) => replace (2 * PI * f * (p * z + q * y)) with (2 * PI * f * p * z + 2 * PI * f * q * y) by ring end.
  rewrite (wx_sq kap a Hk eta1 KE1), (wx_sq kap a Hk eta2 KE2) by auto.
  assert (Q2 : 0 < wx kap eta2 KE2 (1 / u)) by (apply wx_pos; auto).
  assert (Q1 : 0 < wx kap eta1 KE1 (1 / u)) by (apply wx_pos; auto).
  assert (Y2 : 0 <= 2 * KE2 * a * wx kap eta2 KE2 (1 / u) ^ 2 * wz2r (wx kap eta2 KE2 (1 / u) * a) (wx kap eta2 KE2 (1 / u) * b)).
  { apply Rmult_le_pos; [apply Rmult_le_pos; [|apply pow2_ge_0]; apply Rmult_le_pos; lra|]. apply Rlt_le. apply (wz2_pos (wx kap eta2 KE2 (1 / u) * a) (wx kap eta2 KE2 (1 / u) * b)); [apply Rmult_lt_0_compat; auto|apply Rmult_lt_compat_l; auto]. }
  assert (Z := z1_high (wx kap eta1 KE1 (1 / u) * a)). rewrite <- (wx_high u Hu) in X4 |- *. specialize (Z X4).
  set (x := wx kap eta1 KE1 (1 / u)) in *. set (z := wz1r (x * a)) in *.
  apply Rle_trans with (2 * KE1 / a * (z * (x * a)^2)); [|replace (2 * KE1 / a * (z * (x * a)^2)) with (2 * KE1 * a * x^2 * z) by (field; lra); lra].
  replace (KE1 / (32 * a) * (x * a)) with (2 * KE1 / a * (x * a / 64)) by (field; lra).
  apply Rmult_le_compat_l; [apply Rlt_le, Rdiv_lt_0_compat; lra|exact Z].
Qed.
Lemma lim_wK_high : limit1_in (fun u => KR (1 / u)) pos Ki 0 /\ limit1_in (fun u => KI (1 / u)) pos 0 0.
Proof.
  destruct (w_facts Kd K0 phi Kf1 Kf2) as (G1 & G2 & L1 & L2 & _ & _ & _ & P1 & P2); auto. fold k1 k2 g1 g2 in P1, P2. fold KE1 in P1. fold KE2 in P2.
  destruct hill_identity as (_ & KP). assert (Hh := h_pos). destruct (wc_pos Kd Gd K0 phi Kf1 Kf2 a sg) as (_ & C); auto. fold c in C.
  set (e := KE1 / (32 * a) * h). assert (He : 0 < e) by (unfold e; apply Rmult_lt_0_compat; [apply Rdiv_lt_0_compat; lra|auto]).
  assert (0 <= Ki * c / e) by (apply Rmult_le_pos; [apply Rmult_le_pos; lra|apply Rlt_le, Rinv_0_lt_compat; auto]).
  assert (B : forall u, 0 < u -> u < (h / 4)^2 -> Rabs (KR (1 / u) - Ki) <= (Ki * c / e + 1) * sqrt u /\ Rabs (KI (1 / u) - 0) <= (Ki * c / e + 1) * sqrt u).
  { intros u Hu Hu'. assert (Su : 0 < sqrt u) by (apply sqrt_lt_R0; auto).
    assert (S4 : sqrt u <= h / 4) by (rewrite <- (sqrt_pow2 (h / 4)) by lra; apply sqrt_le_1_alt; lra).
    assert (W := wg2_high u Hu S4). assert (Hf : 0 < 1 / u) by (apply Rdiv_lt_0_compat; lra).
    destruct (wg_pos Kd K0 phi Kf1 Kf2 eta1 eta2 kap a sg HK HKf1 HKf2 Hd Hp Hs Hk He1 He2 Ha (1 / u) Hf) as (W1 & W2).
    unfold KR, KI, wKR, wKI. fold c Ki. set (v1 := wg1 Kd K0 phi Kf1 Kf2 eta1 eta2 kap a sg (1 / u)) in *. set (v2 := wg2 Kd K0 phi Kf1 Kf2 eta1 eta2 kap a sg (1 / u)) in *.
    assert (N : 0 < (v1 + c)^2 + v2^2) by (assert (0 < v2^2) by (apply pow_lt; auto); assert (0 <= (v1 + c)^2) by apply pow2_ge_0; lra).
    assert (E1 : e <= v2 * sqrt u). { replace e with (KE1 / (32 * a) * (h / sqrt u) * sqrt u) by (unfold e; field; lra). apply Rmult_le_compat_r; lra. }
    assert (T : Ki * c * / v2 <= (Ki * c / e + 1) * sqrt u).
    { apply Rle_trans with (Ki * c / e * sqrt u); [|nra]. unfold Rdiv. rewrite !Rmult_assoc. apply Rmult_le_compat_l; [lra|]. apply Rmult_le_compat_l; [lra|].
      apply Rmult_le_reg_l with (v2 * e); [apply Rmult_lt_0_compat; auto|]. replace (v2 * e * / v2) with e by (field; lra). replace (v2 * e * (/ e * sqrt u)) with (v2 * sqrt u) by (field; lra). exact E1. }
    assert (I1 : (v1 + c) / ((v1 + c)^2 + v2^2) <= / v2). { apply div_le_iff; [auto|]. apply Rmult_le_reg_l with v2; [auto|]. replace (v2 * (/ v2 * ((v1 + c)^2 + v2^2))) with ((v1 + c)^2 + v2^2) by (field; lra). nra. }
    assert (I2 : v2 / ((v1 + c)^2 + v2^2) <= / v2). { apply div_le_iff; [auto|]. apply Rmult_le_reg_l with v2; [auto|]. replace (v2 * (/ v2 * ((v1 + c)^2 + v2^2))) with ((v1 + c)^2 + v2^2) by (field; lra). nra. }
    assert (KC : 0 <= Ki * c) by (apply Rmult_le_pos; lra).
    split.
    - replace (Ki * (v1^2 + v2^2 + c * v1) / ((v1 + c)^2 + v2^2) - Ki) with (- (Ki * c * ((v1 + c) / ((v1 + c)^2 + v2^2)))) by (field; lra).
      rewrite Rabs_Ropp, Rabs_right; [|apply Rle_ge, Rmult_le_pos; [auto|apply Rlt_le, Rdiv_lt_0_compat; lra]].
      apply Rle_trans with (Ki * c * / v2); [apply Rmult_le_compat_l; auto|exact T].
    - replace (Ki * (c * v2) / ((v1 + c)^2 + v2^2) - 0) with (Ki * c * (v2 / ((v1 + c)^2 + v2^2))) by (field; lra).
      rewrite Rabs_right; [|apply Rle_ge, Rmult_le_pos; [auto|apply Rlt_le, Rdiv_lt_0_compat; lra]].
      apply Rle_trans with (Ki * c * / v2); [apply Rmult_le_compat_l; auto|exact T]. }
  assert (0 < (h / 4)^2) by (apply pow_lt; lra).
  split; apply (lim_bound _ _ (Ki * c / e + 1) ((h / 4)^2)); try lra; intros u H1 H2; apply B; auto.
Qed.
End High.
Lemma lim_V (F G : R -> R) D K Gd rho x0 : limit1_in F D K x0 -> limit1_in G D 0 x0 -> 0 < K + 4/3 * Gd -> 0 < rho ->
  limit1_in (fun x => sqrt (sqrt ((F x + 4/3 * Gd)^2 + G x^2) / rho) * 1 / cos (atan (G x / (F x + 4/3 * Gd)) / 2)) D (sqrt ((K + 4/3 * Gd) / rho)) x0 /\
  limit1_in (fun x => tan (atan (G x / (F x + 4/3 * Gd)) / 2)) D 0 x0.
Proof.
  intros HF HG HP Hr.
  assert (M : limit1_in (fun x => F x + 4/3 * Gd) D (K + 4/3 * Gd) x0) by (apply limit_plus; [exact HF|apply lim_cst]).
  assert (A : limit1_in (fun x => atan (G x / (F x + 4/3 * Gd)) / 2) D 0 x0).
  { eapply lim_eq; [apply limit_mul; [apply (lim_comp_cont atan (fun x => G x / (F x + 4/3 * Gd)))|apply lim_cst]|].
    - apply lim_div; [exact HG|exact M|lra].
    - apply derivable_continuous_pt, derivable_pt_atan.
    - replace (0 / (K + 4/3 * Gd)) with 0 by (field; lra). rewrite atan_0. ring. }
  split.
  - eapply lim_eq; [apply lim_div; [apply limit_mul; [apply (lim_comp_cont sqrt (fun x => sqrt ((F x + 4/3 * Gd)^2 + G x^2) / rho))|apply lim_cst]|apply (lim_comp_cont cos _ _ _ _ A)|]|].
    + apply lim_div; [|apply lim_cst|lra]. apply (lim_comp_cont sqrt (fun x => (F x + 4/3 * Gd)^2 + G x^2)).
      * apply limit_plus; apply lim_pow; [exact M|exact HG].
      * apply continuity_pt_sqrt. assert (0 <= (K + 4/3 * Gd)^2) by apply pow2_ge_0. lra.
    + apply continuity_pt_sqrt. apply Rmult_le_pos; [apply sqrt_pos|apply Rlt_le, Rinv_0_lt_compat; auto].
    + apply continuity_cos.
    + rewrite cos_0. lra.
    + rewrite cos_0. replace ((K + 4/3 * Gd)^2 + 0^2) with ((K + 4/3 * Gd)^2) by ring. rewrite sqrt_pow2 by lra. field.
  - eapply lim_eq; [apply (lim_comp_cont tan _ _ _ _ A)|apply tan_0]. apply derivable_continuous_pt. apply derivable_pt_tan. assert (P := PI_RGT_0). lra.
Qed.
