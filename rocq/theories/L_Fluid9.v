(** * Fluid.py: White-Dutta-Ode with two different fluids. *)
From Verif Require Import Fl Cx M_Utils M_EM M_Anis M_Fluid Spec Spec2 RealLemmas L_Utils L_Anis L_Fluid1 L_Fluid4 L_Fluid5 L_Fluid6.
Open Scope R_scope.

(** ** Impedances of the sphere and the shell in closed form *)
Definition wn1 (X : R) := wf (2 * X)^2 + X^2 * (sinh (2 * X) - sin (2 * X))^2.
Definition wz1r (X : R) := (cosh (2 * X) - cos (2 * X)) * wf (2 * X) / wn1 X.
Definition wz1i (X : R) := (cosh (2 * X) - cos (2 * X)) * (X * (sinh (2 * X) - sin (2 * X))) / wn1 X.
Definition wk (t : R) := (cosh t - cos t) / 2 + t^2 / 4 * (cosh t + cos t) - t / 2 * (sinh t + sin t).
Definition wn2 (X Y : R) := let t := 2 * (Y - X) in wk t + 2 * X^2 * Y^2 * (cosh t - cos t) + t * X * Y * (sinh t - sin t).
Definition wz2r (X Y : R) := let t := 2 * (Y - X) in (X * Y^2 * (sinh t - sin t) + Y / 2 * wf1 t - wf t / 2) / wn2 X Y.
Definition wz2i (X Y : R) := let t := 2 * (Y - X) in X * ((sinh t - sin t) / 2 + Y * (Y * (sinh t + sin t) - (cosh t - cos t))) / wn2 X Y.

Lemma coshcos t : 0 < t -> 0 < cosh t - cos t.
Proof. intros H. assert (X := cosh_gt t H). assert (Y := COS_bound t). lra. Qed.
Lemma sinhsinp t : 0 < t -> 0 < sinh t + sin t.
Proof.
  intros Ht. apply (pos_of_deriv (fun t => sinh t + sin t) (fun t => cosh t + cos t)); auto.
  - rewrite sinh_0, sin_0. ring.
  - intros c. change (fun t => sinh t + sin t) with (plus_fct sinh sin). dl.
  - intros c Hc. assert (X := cosh_gt c Hc). assert (Y := COS_bound c). lra.
Qed.
Lemma wk_deriv c : derivable_pt_lim wk c (c^2 / 4 * (sinh c - sin c)).
Proof.
  unfold wk. change (fun t => (cosh t - cos t) / 2 + t^2 / 4 * (cosh t + cos t) - t / 2 * (sinh t + sin t)) with
    (minus_fct (plus_fct (mult_fct (minus_fct cosh cos) (fct_cte (/ 2))) (mult_fct (mult_fct (fun t => t^2) (fct_cte (/ 4))) (plus_fct cosh cos)))
       (mult_fct (mult_fct id (fct_cte (/ 2))) (plus_fct sinh sin))).
  assert (D2 : derivable_pt_lim (fun t => t^2) c (2 * c)).
  { eapply dpl_eq; [apply (derivable_pt_lim_pow c 2)|]. cbn [pow INR Init.Nat.pred]. ring. }
  eapply dpl_eq; [repeat first [exact D2 | dl]|]. unfold id, plus_fct, minus_fct, fct_cte, mult_fct. field.
Qed.
Lemma wk_0 : wk 0 = 0.
Proof. unfold wk. rewrite cosh_0, cos_0, sinh_0, sin_0. field. Qed.
Lemma wk_pos t : 0 < t -> 0 < wk t.
Proof.
  intros Ht. apply (pos_of_deriv wk (fun c => c^2 / 4 * (sinh c - sin c))); auto; [apply wk_0|apply wk_deriv|].
  intros c Hc. assert (X := sinh_sin c Hc). apply Rmult_lt_0_compat; [|auto]. assert (0 < c^2) by (apply pow_lt; auto). lra.
Qed.
Section Imp.
Variables (X Y : R).
Hypotheses (HX : 0 < X) (HY : X < Y).
Lemma wn1_pos : 0 < wn1 X.
Proof.
  unfold wn1. assert (A := wf_pos (2 * X) ltac:(lra)). assert (B := sinh_sin (2 * X) ltac:(lra)).
  assert (0 < wf (2 * X)^2) by (apply pow_lt; auto). assert (0 < X^2 * (sinh (2 * X) - sin (2 * X))^2) by (apply Rmult_lt_0_compat; apply pow_lt; auto). lra.
Qed.
Lemma wz1_pos : 0 < wz1r X /\ 0 < wz1i X.
Proof.
  assert (N := wn1_pos). assert (A := wf_pos (2 * X) ltac:(lra)). assert (B := sinh_sin (2 * X) ltac:(lra)). assert (C := coshcos (2 * X) ltac:(lra)).
  unfold wz1r, wz1i. split; apply Rdiv_lt_0_compat; auto; apply Rmult_lt_0_compat; auto. apply Rmult_lt_0_compat; auto.
Qed.
Lemma wn2_pos : 0 < wn2 X Y.
Proof.
  unfold wn2. cbv zeta. set (t := 2 * (Y - X)). assert (Ht : 0 < t) by (unfold t; lra).
  assert (A := wk_pos t Ht). assert (B := sinh_sin t Ht). assert (C := coshcos t Ht).
  assert (0 < X^2 * Y^2) by (apply Rmult_lt_0_compat; apply pow_lt; lra).
  assert (0 < X^2 * Y^2 * (cosh t - cos t)) by (apply Rmult_lt_0_compat; auto).
  assert (0 < t * X) by (apply Rmult_lt_0_compat; auto). assert (0 < t * X * Y) by (apply Rmult_lt_0_compat; lra).
  assert (0 < t * X * Y * (sinh t - sin t)) by (apply Rmult_lt_0_compat; auto). lra.
Qed.
Lemma wz2_pos : 0 < wz2r X Y /\ 0 < wz2i X Y.
Proof.
  assert (N := wn2_pos). unfold wz2r, wz2i. cbv zeta. set (t := 2 * (Y - X)). assert (Ht : 0 < t) by (unfold t; lra).
  assert (B := sinh_sin t Ht). assert (C := coshcos t Ht). assert (D := sinhsinp t Ht).
  assert (W1 := wf1_pos t Ht). assert (W2 := wf_convex t Ht). assert (W := wf_pos t Ht).
  split; apply Rdiv_lt_0_compat; auto.
  - assert (0 < X * Y^2 * (sinh t - sin t)) by (apply Rmult_lt_0_compat; auto; apply Rmult_lt_0_compat; auto; apply pow_lt; lra).
    assert (t / 2 * wf1 t <= Y * wf1 t) by (apply Rmult_le_compat_r; unfold t in *; lra). lra.
  - apply Rmult_lt_0_compat; auto. assert (0 < Y * (Y * (sinh t + sin t) - (cosh t - cos t))); [|lra].
    apply Rmult_lt_0_compat; [lra|]. assert (t / 2 * (sinh t + sin t) < Y * (sinh t + sin t)) by (apply Rmult_lt_compat_r; unfold t in *; lra). unfold wf in W. lra.
Qed.
Lemma cdiv_form K n1 n2 d1 d2 k r i N : 0 < k -> 0 < N -> n1 * d1 + n2 * d2 = k * r -> n2 * d1 - n1 * d2 = k * i -> d1^2 + d2^2 = k * N ->
  cdiv (cmul (CFin K 0) (CFin n1 n2)) (CFin d1 d2) = CFin (K * (r / N)) (K * (i / N)).
Proof.
  intros Hk HN E1 E2 E3. assert (0 < k * N) by (apply Rmult_lt_0_compat; auto).
  rewrite cmul_fin, cdiv_fin by lra. rewrite E3. apply cfin_eq.
  - replace ((K * n1 - 0 * n2) * d1 + (K * n2 + 0 * n1) * d2) with (K * (n1 * d1 + n2 * d2)) by ring. rewrite E1. field. lra.
  - replace ((K * n2 + 0 * n1) * d1 - (K * n1 - 0 * n2) * d2) with (K * (n2 * d1 - n1 * d2)) by ring. rewrite E2. field. lra.
Qed.
Lemma Z1_form K :
  cdiv (cmul (CFin K 0) (csub (CFin 1 0) (cexp (CFin (-2 * X) (-2 * X)))))
       (cadd (csub (CFin X X) (CFin 1 0)) (cmul (cadd (CFin X X) (CFin 1 0)) (cexp (CFin (-2 * X) (-2 * X))))) = CFin (K * wz1r X) (- (K * wz1i X)).
Proof.
  cbn [cexp]. repeat first [rewrite csub_fin | rewrite cadd_fin | rewrite cmul_fin]. rewrite <- cmul_fin.
  assert (N := wn1_pos). assert (C := coshcos (2 * X) ltac:(lra)).
  set (E := exp (-2 * X)). assert (EP : 0 < E) by apply exp_pos.
  replace (-2 * X) with (- (2 * X)) by ring. rewrite cos_neg, sin_neg.
  unfold wz1r, wz1i. unfold wn1 in *. unfold wf, sinh, cosh in *.
  assert (EE : exp (2 * X) * E = 1) by (unfold E; rewrite <- exp_plus; replace (2 * X + -2 * X) with 0 by ring; apply exp_0).
  replace (exp (- (2 * X))) with E in * by (unfold E; f_equal; ring).
  set (c := cos (2 * X)) in *. set (s := sin (2 * X)) in *. set (P := exp (2 * X)) in *.
  assert (CS : c * c + s * s = 1) by (unfold c, s; assert (T := sin2_cos2 (2 * X)); unfold Rsqr in T; lra).
  match goal with |- cdiv (cmul _ (CFin ?a ?b)) (CFin ?a' ?b') = _ => set (n1 := a); set (n2 := b); set (d1 := a'); set (d2 := b') end.
  set (sh := (P - E) / 2) in *. set (ch := (P + E) / 2) in *.
  assert (Esh : E * sh = (1 - E * E) / 2) by (unfold sh; lra). assert (Ech : E * ch = (1 + E * E) / 2) by (unfold ch; lra).
  assert (A1 : n1 * d1 + n2 * d2 = 2 * E * (2 * X / 2 * (sh + s) - ch + c)).
  { transitivity (X * (1 - E * E * (c * c + s * s) + 2 * E * s) - (1 - 2 * E * c + E * E * (c * c + s * s))); [unfold n1, n2, d1, d2; ring|].
    rewrite CS. transitivity (2 * X * (E * sh) + 2 * X * E * s - 2 * (E * ch) + 2 * E * c); [rewrite Esh, Ech; field|field]. }
  assert (A2 : n2 * d1 - n1 * d2 = - (2 * E * (X * (sh - s)))).
  { transitivity (- (X * (1 - E * E * (c * c + s * s) - 2 * E * s))); [unfold n1, n2, d1, d2; ring|].
    rewrite CS. transitivity (- (2 * X * (E * sh) - 2 * X * E * s)); [rewrite Esh; field|field]. }
  assert (A3 : n1^2 + n2^2 = 2 * E * (ch - c)).
  { transitivity (1 - 2 * E * c + E * E * (c * c + s * s)); [unfold n1, n2; ring|]. rewrite CS. transitivity (2 * (E * ch) - 2 * E * c); [rewrite Ech; field|ring]. }
  assert (A4 : (n1^2 + n2^2) * (d1^2 + d2^2) = (n1 * d1 + n2 * d2)^2 + (n2 * d1 - n1 * d2)^2) by ring.
  rewrite A1, A2, A3 in A4.
  set (wfv := 2 * X / 2 * (sh + s) - ch + c) in *.
  assert (A5 : d1^2 + d2^2 = (2 * E / (ch - c)) * (wfv^2 + X^2 * (sh - s)^2)).
  { apply (Rmult_eq_reg_l (2 * E * (ch - c))); [rewrite A4; field; lra|]. assert (0 < 2 * E * (ch - c)) by (apply Rmult_lt_0_compat; lra). lra. }
  assert (0 < 2 * E / (ch - c)) by (apply Rdiv_lt_0_compat; lra).
  rewrite (cdiv_form K n1 n2 d1 d2 (2 * E / (ch - c)) ((ch - c) * wfv) (- ((ch - c) * (X * (sh - s)))) (wfv^2 + X^2 * (sh - s)^2)); auto.
  - apply cfin_eq; [reflexivity|]. field. lra.
  - rewrite A1. field. lra.
  - rewrite A2. field. lra.
Qed.
Lemma Z2_form K :
  cdiv (cmul (CFin (- K) 0) (cadd (cadd (CFin Y Y) (CFin 1 0)) (cmul (csub (CFin Y Y) (CFin 1 0)) (cexp (CFin (2 * (Y - X)) (2 * (Y - X)))))))
       (csub (cmul (cadd (CFin Y Y) (CFin 1 0)) (csub (CFin X X) (CFin 1 0)))
             (cmul (cmul (csub (CFin Y Y) (CFin 1 0)) (cadd (CFin X X) (CFin 1 0))) (cexp (CFin (2 * (Y - X)) (2 * (Y - X)))))) = CFin (K * wz2r X Y) (- (K * wz2i X Y)).
Proof.
  cbn [cexp]. repeat first [rewrite csub_fin | rewrite cadd_fin | rewrite cmul_fin]. rewrite <- (cmul_fin (- K) 0).
  assert (N := wn2_pos). unfold wz2r, wz2i. unfold wn2 in *. cbv zeta in *. set (t := 2 * (Y - X)) in *. assert (Ht : 0 < t) by (unfold t; lra).
  set (P := exp t). assert (PP : 0 < P) by apply exp_pos.
  assert (PQ : P * exp (- t) = 1) by (unfold P; rewrite <- exp_plus; replace (t + - t) with 0 by ring; apply exp_0).
  unfold wk, wf, wf1, sinh, cosh in *. fold P in N |- *. set (Q := exp (- t)) in *.
  set (c := cos t) in *. set (s := sin t) in *.
  assert (CS : c * c + s * s = 1) by (unfold c, s; assert (T := sin2_cos2 t); unfold Rsqr in T; lra).
  set (n1 := Y + 1 + ((Y - 1) * (P * c) - (Y - 0) * (P * s))). set (n2 := Y + 0 + ((Y - 1) * (P * s) + (Y - 0) * (P * c))).
  match goal with |- context [cdiv _ (CFin ?u ?v)] => set (d1 := u); set (d2 := v) end.
  set (sh := (P - Q) / 2) in *. set (ch := (P + Q) / 2) in *.
  assert (Esh : P * sh = (P * P - 1) / 2) by (unfold sh; lra). assert (Ech : P * ch = (P * P + 1) / 2) by (unfold ch; lra).
  replace (cmul (CFin (- K) 0) (CFin n1 n2)) with (cmul (CFin K 0) (CFin (- n1) (- n2))).
  2:{ rewrite !cmul_fin. apply cfin_eq; ring. }
  match type of N with 0 < ?n => set (NN := n) in * end.
  rewrite (cdiv_form K (- n1) (- n2) d1 d2 (4 * P) (X * Y^2 * (sh - s) + Y / 2 * (t * (ch + c) - (sh + s)) - (t / 2 * (sh + s) - ch + c) / 2)
    (- (X * ((sh - s) / 2 + Y * (Y * (sh + s) - (ch - c))))) NN); auto.
  - apply cfin_eq; [reflexivity|]. unfold Rdiv. ring.
  - lra.
  - assert (Eq : (- n1) * d1 + (- n2) * d2 =
      Y * t * (P * P * (c * c + s * s) + 1 + 2 * P * c) + (P * P * (c * c + s * s) + 1 - 2 * P * c)
      + 2 * X * Y * Y * (P * P * (c * c + s * s) - 1 - 2 * P * s) - (Y + t / 2) * (P * P * (c * c + s * s) - 1 + 2 * P * s)).
    { unfold n1, n2, d1, d2, t. field. }
    rewrite Eq, CS.
    transitivity (Y * t * (2 * (P * ch) + 2 * P * c) + (2 * (P * ch) - 2 * P * c) + 2 * X * Y * Y * (2 * (P * sh) - 2 * P * s) - (Y + t / 2) * (2 * (P * sh) + 2 * P * s)); [rewrite Esh, Ech; field|field].
  - assert (Eq : (- n2) * d1 - (- n1) * d2 = - (X * ((P * P * (c * c + s * s) - 1 - 2 * P * s) + 2 * Y * (Y * (P * P * (c * c + s * s) - 1 + 2 * P * s) - (P * P * (c * c + s * s) + 1 - 2 * P * c))))).
    { unfold n1, n2, d1, d2, t. ring. }
    rewrite Eq, CS.
    transitivity (- (X * ((2 * (P * sh) - 2 * P * s) + 2 * Y * (Y * (2 * (P * sh) + 2 * P * s) - (2 * (P * ch) - 2 * P * c))))); [rewrite Esh, Ech; field|field].
  - assert (Eq : d1^2 + d2^2 = (1 + t / 2)^2 + (2 * X * Y - t / 2)^2 + ((t / 2 - 1)^2 + (2 * X * Y + t / 2)^2) * (P * P * (c * c + s * s))
      - 2 * P * ((1 - t^2 / 2 + 4 * X^2 * Y^2) * c + (t + 2 * X * Y * t) * s)).
    { unfold d1, d2, t. field. }
    rewrite Eq, CS. unfold NN.
    transitivity (4 * ((P * ch - P * c) / 2 + t^2 / 4 * (P * ch + P * c) - t / 2 * (P * sh + P * s) + 2 * X^2 * Y^2 * (P * ch - P * c) + t * X * Y * (P * sh - P * s))); [rewrite Esh, Ech; field|field].
Qed.
End Imp.

(** ** The modulus and the wave *)
Lemma Kstar_form Kinf w b3 om zr zi : 0 < Kinf -> 0 < b3 -> 0 < om -> 0 < zr -> 0 < zi -> w <= 0 ->
  let c := - Kinf * w / b3 in let g1 := om * zi in let g2 := om * zr in
  cdiv (CFin Kinf 0) (csub (CFin 1 0) (cmul (CFin Kinf 0) (cdiv (CFin w 0) (cmul (cmul (cmul (CFin b3 0) cI) (CFin om 0)) (CFin zr (- zi))))))
  = CFin (Kinf * (g1^2 + g2^2 + c * g1) / ((g1 + c)^2 + g2^2)) (Kinf * (c * g2) / ((g1 + c)^2 + g2^2)).
Proof.
  intros HK Hb Ho Hr Hi Hw c g1 g2. assert (P1 : 0 < g1) by (apply Rmult_lt_0_compat; auto). assert (P2 : 0 < g2) by (apply Rmult_lt_0_compat; auto).
  assert (Hc : 0 <= c). { unfold c. apply Rmult_le_pos; [nra|]. apply Rlt_le, Rinv_0_lt_compat; auto. }
  assert (N : 0 < g1^2 + g2^2). { assert (0 < g1^2) by (apply pow_lt; auto). assert (0 < g2^2) by (apply pow_lt; auto). lra. }
  assert (N2 : 0 < (g1 + c)^2 + g2^2). { assert (0 < (g1 + c)^2) by (apply pow_lt; lra). assert (0 < g2^2) by (apply pow_lt; auto). lra. }
  replace (cmul (cmul (cmul (CFin b3 0) cI) (CFin om 0)) (CFin zr (- zi))) with (CFin (b3 * g1) (b3 * g2)).
  2:{ unfold cI. rewrite !cmul_fin. apply cfin_eq; unfold g1, g2; ring. }
  assert (B2 : 0 < b3^2) by (apply pow_lt; auto).
  assert (E2 : (b3 * g1)^2 + (b3 * g2)^2 = b3^2 * (g1^2 + g2^2)) by ring.
  assert (0 < b3^2 * (g1^2 + g2^2)) by (apply Rmult_lt_0_compat; auto).
  rewrite cdiv_fin by lra. rewrite cmul_fin, csub_fin. rewrite E2.
  match goal with |- cdiv _ (CFin ?u ?v) = _ => replace u with ((g1^2 + g2^2 + c * g1) / (g1^2 + g2^2)) by (unfold c; field; lra); 
    replace v with (- (c * g2) / (g1^2 + g2^2)) by (unfold c; field; lra) end.
  assert (E3 : ((g1^2 + g2^2 + c * g1) / (g1^2 + g2^2))^2 + (- (c * g2) / (g1^2 + g2^2))^2 = ((g1 + c)^2 + g2^2) / (g1^2 + g2^2)) by (field; lra).
  assert (0 < ((g1 + c)^2 + g2^2) / (g1^2 + g2^2)) by (apply Rdiv_lt_0_compat; auto).
  rewrite cdiv_fin by lra. rewrite E3. apply cfin_eq; field; lra.
Qed.
(** Velocity and attenuation from the complex modulus: the square of the complex slowness times the modulus is the density. *)
Lemma wave_form MR MI rho om : 0 < MR -> 0 <= MI -> 0 < rho -> 0 < om ->
  let th := atan (MI / MR) in let V := sqrt (sqrt (MR^2 + MI^2) / rho) * 1 / cos (th / 2) in let aw := om / V * tan (th / 2) in
  0 < V /\ 0 <= aw /\ 0 < cos (th / 2) /\ 0 < sqrt (MR^2 + MI^2) / rho /\ cmul (cmul (CFin (1 / V) (- aw / om)) (CFin (1 / V) (- aw / om))) (CFin MR MI) = CFin rho 0.
Proof.
  intros HR HI Hr Ho th V aw. assert (P := PI_RGT_0).
  assert (T0 : 0 <= th). { unfold th. rewrite <- atan_0. assert (0 <= MI / MR) by (apply Rmult_le_pos; [auto|apply Rlt_le, Rinv_0_lt_compat; auto]).
    destruct H as [H|H]; [apply Rlt_le, atan_increasing, H|rewrite <- H; lra]. }
  assert (T1 : th < PI / 2) by (apply atan_bound).
  assert (C : 0 < cos (th / 2)) by (apply cos_gt_0; lra). assert (S : 0 <= sin (th / 2)) by (apply sin_ge_0; lra).
  assert (Ct : 0 < cos th) by (apply cos_gt_0; lra).
  set (A := sqrt (MR^2 + MI^2)). assert (MR2 : 0 < MR^2) by (apply pow_lt; auto). assert (MI2 := pow2_ge_0 MI).
  assert (HA : 0 < A) by (apply sqrt_lt_R0; lra). assert (A2 : A^2 = MR^2 + MI^2) by (apply pow2_sqrt; lra).
  assert (Et : tan th = MI / MR) by (apply atan_right_inv).
  assert (Es : sin th * MR = MI * cos th). { unfold tan in Et. apply (Rmult_eq_reg_r (/ (cos th * MR))); [|apply Rinv_neq_0_compat; nra]. transitivity (sin th / cos th); [field; lra|]. rewrite Et. field; lra. }
  assert (SC := sin2_cos2 th). unfold Rsqr in SC.
  assert (EA : A * cos th = MR).
  { apply Rsqr_inj; [apply Rmult_le_pos; lra|lra|]. unfold Rsqr. transitivity (A^2 * (cos th * cos th)); [ring|]. rewrite A2. 
    transitivity ((cos th * MR)^2 + (MI * cos th)^2); [ring|]. rewrite <- Es. transitivity (MR^2 * (sin th * sin th + cos th * cos th)); [ring|]. rewrite SC. ring. }
  assert (EB : A * sin th = MI). { apply (Rmult_eq_reg_r (cos th)); [|lra]. rewrite <- Es, <- EA. ring. }
  assert (Ar : 0 < A / rho) by (apply Rdiv_lt_0_compat; auto). set (q := sqrt (A / rho)) in *. assert (Hq : 0 < q) by (apply sqrt_lt_R0; auto).
  assert (Eq : q^2 = A / rho) by (apply pow2_sqrt; lra).
  assert (HV : 0 < V) by (unfold V; fold A; fold q; apply Rdiv_lt_0_compat; lra).
  assert (E1 : 1 / V = cos (th / 2) / q) by (unfold V; fold A; fold q; field; lra).
  assert (E2 : - aw / om = - (sin (th / 2) / q)). { unfold aw, tan. replace (om / V) with (om * (1 / V)) by (field; lra). rewrite E1. field. lra. }
  split; [exact HV|]. split.
  { assert (0 <= sin (th / 2) / q) by (apply Rmult_le_pos; [auto|apply Rlt_le, Rinv_0_lt_compat; auto]). assert (aw = om * (sin (th / 2) / q)) by (replace aw with (- (- aw / om) * om) by (field; lra); rewrite E2; ring). rewrite H0. apply Rmult_le_pos; lra. }
  split; [exact C|]. split; [exact Ar|]. rewrite E1, E2, !cmul_fin.
  assert (D1 : cos th = cos (th / 2) * cos (th / 2) - sin (th / 2) * sin (th / 2)) by (rewrite <- cos_plus; f_equal; field).
  assert (D2 : sin th = 2 * sin (th / 2) * cos (th / 2)) by (rewrite <- sin_2a; f_equal; field).
  assert (F1 : cos (th / 2) / q * (cos (th / 2) / q) - - (sin (th / 2) / q) * - (sin (th / 2) / q) = cos th / q^2) by (rewrite D1; field; lra).
  assert (F2 : cos (th / 2) / q * - (sin (th / 2) / q) + - (sin (th / 2) / q) * (cos (th / 2) / q) = - sin th / q^2) by (rewrite D2; field; lra).
  rewrite F1, F2, Eq, <- EA, <- EB. apply cfin_eq; [|field; lra].
  transitivity (rho * (sin th * sin th + cos th * cos th)); [field; lra|]. rewrite SC. ring.
Qed.

Section Two.
Variables (m : mode) (Kd Gd K0 phi r0 rf1 rf2 Kf1 Kf2 eta1 eta2 kap a sg : R).
Hypotheses (HK : 0 < K0) (HKf1 : 0 < Kf1 < K0) (HKf2 : 0 < Kf2 < K0) (Hd : 0 < Kd < K0) (HG : 0 <= Gd) (Hp : 0 < phi <= 1)
  (Hs : 0 < sg < 1) (Hk : 0 < kap) (Hrho : 0 < (1 - phi) * r0 + phi * sg * rf1 + phi * (1 - sg) * rf2) (He1 : 0 < eta1) (He2 : 0 < eta2)
  (Ha : 0 < a).
Let k1 := gK Kd K0 Kf1 phi.
Let k2 := gK Kd K0 Kf2 phi.
Let g1 := gB Kd K0 Kf1 phi.
Let g2 := gB Kd K0 Kf2 phi.
Let bt := 1 - Kd / K0.
Let KE1 := Kd / (k1 * g1).
Let KE2 := Kd / (k2 * g2).
Let b := a / Rpower sg (1/3).
Let Dd := k2 * (3 * k1 + 4 * Gd) + 4 * Gd * (k1 - k2) * sg.
Definition wKinf := Dd / (3 * k1 + 4 * Gd - 3 * (k1 - k2) * sg).
Definition wnum := 3 * a^2 * ((k1 - Kd) / bt * (3 * k2 + 4 * Gd) / Dd - (k2 - Kd) / bt * (3 * k1 + 4 * Gd) / Dd) * (- (bt * (1 / g1) / k1) + bt * (1 / g2) / k2).
Definition wc := - wKinf * wnum / b^3.
Definition wx (eta KE f : R) := sqrt (2 * PI * f * eta / (kap * KE) / 2).
Definition wg1 (f : R) := 2 * PI * f * (eta1 * a / kap * wz1i (wx eta1 KE1 f * a) + eta2 * a / kap * wz2i (wx eta2 KE2 f * a) (wx eta2 KE2 f * b)).
Definition wg2 (f : R) := 2 * PI * f * (eta1 * a / kap * wz1r (wx eta1 KE1 f * a) + eta2 * a / kap * wz2r (wx eta2 KE2 f * a) (wx eta2 KE2 f * b)).
Definition wKR (f : R) := wKinf * (wg1 f^2 + wg2 f^2 + wc * wg1 f) / ((wg1 f + wc)^2 + wg2 f^2).
Definition wKI (f : R) := wKinf * (wc * wg2 f) / ((wg1 f + wc)^2 + wg2 f^2).
Definition wrho := (1 - phi) * r0 + phi * sg * rf1 + phi * (1 - sg) * rf2.
Definition wV (f : R) := sqrt (sqrt ((wKR f + 4/3 * Gd)^2 + wKI f^2) / wrho) * 1 / cos (atan (wKI f / (wKR f + 4/3 * Gd)) / 2).
Definition waw (f : R) := 2 * PI * f / wV f * tan (atan (wKI f / (wKR f + 4/3 * Gd)) / 2).

Lemma w_facts : 0 < g1 /\ 0 < g2 /\ Kd < k1 <= K0 /\ Kd < k2 <= K0 /\ 0 < bt /\ k1 = Kd + bt^2 / g1 /\ k2 = Kd + bt^2 / g2 /\ 0 < KE1 /\ 0 < KE2.
Proof.
  assert (x := gb_pos Kd K0 HK ltac:(lra)). assert (y1 := gB_pos Kd K0 Kf1 phi HK ltac:(lra) ltac:(lra)). assert (y2 := gB_pos Kd K0 Kf2 phi HK ltac:(lra) ltac:(lra)).
  assert (z1 := gK_range Kd K0 Kf1 phi HK ltac:(lra) ltac:(lra) Hp). assert (z2 := gK_range Kd K0 Kf2 phi HK ltac:(lra) ltac:(lra) Hp).
  assert (B0 : 0 < bt) by (unfold bt; assert (Kd / K0 < 1); [apply div_lt_iff; lra|lra]).
  assert (G1 : 0 < g1) by (unfold g1; lra). assert (G2 : 0 < g2) by (unfold g2; lra).
  fold k1 in z1. fold k2 in z2. repeat split; auto; try lra.
  - unfold KE1. apply Rdiv_lt_0_compat; [lra|apply Rmult_lt_0_compat; lra].
  - unfold KE2. apply Rdiv_lt_0_compat; [lra|apply Rmult_lt_0_compat; lra].
Qed.
Lemma w_b : a < b /\ b^3 = a^3 / sg.
Proof.
  assert (RP : 0 < Rpower sg (1/3)) by apply exp_pos.
  assert (R1 : Rpower sg (1/3) < 1).
  { unfold Rpower. rewrite <- exp_0 at 2. apply exp_increasing. assert (ln sg < 0) by (rewrite <- ln_1; apply ln_increasing; lra). lra. }
  split; [unfold b; apply lt_div_iff; [auto|]; nra|].
  assert (E : Rpower sg (1/3) ^ 3 = sg). { rewrite <- Rpower_pow by auto. rewrite Rpower_mult. replace (1 / 3 * INR 3) with 1 by (cbn [INR]; field). apply Rpower_1; lra. }
  unfold b. replace ((a / Rpower sg (1/3))^3) with (a^3 / Rpower sg (1/3)^3) by (field; lra). rewrite E. reflexivity.
Qed.
Lemma w_D : 0 < Dd /\ 0 < 3 * k1 + 4 * Gd - 3 * (k1 - k2) * sg /\ 0 < k1 - Kd + sg * (k2 - k1) /\ 0 < wKinf.
Proof.
  destruct w_facts as (_ & _ & L1 & L2 & _).
  assert (A : 0 < Dd). { unfold Dd. assert (0 < k2 * k1) by (apply Rmult_lt_0_compat; lra). assert (0 <= Gd * (k2 * (1 - sg) + k1 * sg)); [|nra]. apply Rmult_le_pos; [auto|]. nra. }
  assert (B : 0 < 3 * k1 + 4 * Gd - 3 * (k1 - k2) * sg) by nra.
  repeat split; auto; [nra|]. apply Rdiv_lt_0_compat; auto.
Qed.
Lemma wnum_form : wnum = - (3 * a^2 * bt^2 * (4 * Gd + 3 * Kd) * (g1 - g2)^2 * Kd) / (Dd * g1 * g2 * (g1 * g2 * k1 * k2)).
Proof.
  destruct w_facts as (G1 & G2 & L1 & L2 & B & E1 & E2 & _). destruct w_D as (D & _).
  unfold wnum. clearbody Dd bt g1 g2.
  assert (F1 : k1 * g1 = Kd * g1 + bt^2) by (rewrite E1; field; lra). assert (F2 : k2 * g2 = Kd * g2 + bt^2) by (rewrite E2; field; lra).
  assert (X : - (bt * (1 / g1) / k1) + bt * (1 / g2) / k2 = bt * (Kd * (g1 - g2)) / (g1 * g2 * k1 * k2)).
  { transitivity (bt * (k1 * g1 - k2 * g2) / (g1 * g2 * k1 * k2)); [field; repeat split; lra|]. rewrite F1, F2. field. repeat split; lra. }
  rewrite X.
  assert (Y : (k1 - Kd) / bt * (3 * k2 + 4 * Gd) / Dd - (k2 - Kd) / bt * (3 * k1 + 4 * Gd) / Dd = - (bt * (4 * Gd + 3 * Kd) * (g1 - g2)) / (Dd * g1 * g2)).
  { transitivity ((k1 - k2) * (4 * Gd + 3 * Kd) / (bt * Dd)); [field; lra|]. rewrite E1, E2. field. lra. }
  rewrite Y. field. repeat split; lra.
Qed.
Lemma wc_pos : wnum <= 0 /\ 0 <= wc.
Proof.
  destruct w_facts as (G1 & G2 & L1 & L2 & B & _). destruct w_D as (D & _ & _ & KI). destruct w_b as (Hb & _).
  assert (N : wnum <= 0).
  { rewrite wnum_form. assert (0 <= 3 * a^2 * bt^2 * (4 * Gd + 3 * Kd) * (g1 - g2)^2 * Kd).
    { apply Rmult_le_pos; [|lra]. apply Rmult_le_pos; [|apply pow2_ge_0]. apply Rmult_le_pos; [|lra]. apply Rmult_le_pos; [|apply pow2_ge_0]. apply Rmult_le_pos; [lra|apply pow2_ge_0]. }
    assert (0 < / (Dd * g1 * g2 * (g1 * g2 * k1 * k2))).
    { apply Rinv_0_lt_compat. assert (0 < g1 * g2) by (apply Rmult_lt_0_compat; auto). apply Rmult_lt_0_compat; [apply Rmult_lt_0_compat; [apply Rmult_lt_0_compat|]; auto|]. apply Rmult_lt_0_compat; [apply Rmult_lt_0_compat; [auto|lra]|lra]. }
    unfold Rdiv. set (u := / _) in *. set (v := _ * Kd) in *. assert (0 <= v * u) by (apply Rmult_le_pos; lra); lra. }
  split; [exact N|]. unfold wc. apply Rmult_le_pos; [nra|]. apply Rlt_le, Rinv_0_lt_compat, pow_lt. lra.
Qed.
Section Freq.
Variable f : R.
Hypothesis Hf : 0 < f.
Lemma wx_pos eta KE : 0 < eta -> 0 < KE -> 0 < wx eta KE f.
Proof.
  intros A B. unfold wx. apply sqrt_lt_R0. assert (P := PI_RGT_0). apply Rmult_lt_0_compat; [|lra]. apply Rdiv_lt_0_compat; [|apply Rmult_lt_0_compat; auto].
  apply Rmult_lt_0_compat; [|auto]. apply Rmult_lt_0_compat; lra.
Qed.
Lemma wx_form eta KE : 0 < eta -> 0 < KE -> csqrt (cdiv (cmul (cmul cI (CFin (2 * PI * f) 0)) (CFin eta 0)) (CFin (kap * KE) 0)) = CFin (wx eta KE f) (wx eta KE f).
Proof.
  intros A B. assert (Q : 0 < kap * KE) by (apply Rmult_lt_0_compat; auto). set (D := kap * KE) in *.
  assert (Pi := PI_RGT_0). set (om := 2 * PI * f). assert (Ho : 0 < om) by (unfold om; apply Rmult_lt_0_compat; lra).
  unfold cI. rewrite !cmul_fin. rewrite cdiv_fin by (apply sumsq_nz; left; lra).
  assert (Y : 0 < om * eta / D) by (apply Rdiv_lt_0_compat; [apply Rmult_lt_0_compat|]; lra).
  unfold wx. fold om D. rewrite <- csqrt_imag by auto. f_equal. apply cfin_eq; field; lra.
Qed.
Lemma wg_pos : 0 < wg1 f /\ 0 < wg2 f.
Proof.
  destruct w_facts as (G1 & G2 & L1 & L2 & B & _ & _ & P1 & P2). destruct w_b as (Hb & _). assert (P := PI_RGT_0).
  assert (X1 := wx_pos eta1 KE1 He1 P1). assert (X2 := wx_pos eta2 KE2 He2 P2).
  assert (Y1 : 0 < wx eta1 KE1 f * a) by (apply Rmult_lt_0_compat; auto). assert (Y2 : 0 < wx eta2 KE2 f * a) by (apply Rmult_lt_0_compat; auto).
  assert (Y3 : wx eta2 KE2 f * a < wx eta2 KE2 f * b) by (apply Rmult_lt_compat_l; auto).
  destruct (wz1_pos _ Y1) as (A1 & A2). destruct (wz2_pos _ _ Y2 Y3) as (A3 & A4).
  assert (E1 : 0 < eta1 * a / kap) by (apply Rdiv_lt_0_compat; [apply Rmult_lt_0_compat|]; lra). assert (E2 : 0 < eta2 * a / kap) by (apply Rdiv_lt_0_compat; [apply Rmult_lt_0_compat|]; lra).
  assert (0 < 2 * PI * f) by (apply Rmult_lt_0_compat; lra).
  unfold wg1, wg2. split; apply Rmult_lt_0_compat; auto; apply Rplus_lt_0_compat; apply Rmult_lt_0_compat; auto.
Qed.
Lemma wK_pos : 0 < wKR f <= wKinf /\ 0 <= wKI f.
Proof.
  destruct wg_pos as (P1 & P2). destruct wc_pos as (_ & C). destruct w_D as (_ & _ & _ & KI).
  unfold wKR, wKI. set (u := wg1 f) in *. set (v := wg2 f) in *. set (c := wc) in *.
  assert (0 < u^2) by (apply pow_lt; auto). assert (0 < v^2) by (apply pow_lt; auto). assert (0 <= c * u) by (apply Rmult_le_pos; lra). assert (0 <= c * v) by (apply Rmult_le_pos; lra). assert (0 <= c^2) by apply pow2_ge_0.
  assert (N : 0 < (u + c)^2 + v^2) by (assert (0 < (u + c)^2) by (apply pow_lt; lra); lra).
  split; [split|].
  - apply Rdiv_lt_0_compat; auto. apply Rmult_lt_0_compat; lra.
  - apply div_le_iff; auto. apply Rmult_le_compat_l; [lra|]. nra.
  - apply Rmult_le_pos; [apply Rmult_le_pos; lra|]. apply Rlt_le, Rinv_0_lt_compat; auto.
Qed.
Lemma White_two :
  Fluid_White_Dutta_Ode m (Fin Kd) (Fin Gd) (Fin K0) (Fin phi) (Fin r0) (Fin rf1) (Fin rf2) (Fin Kf1) (Fin Kf2)
    (Fin eta1) (Fin eta2) (Fin kap) (Fin a) (Fin sg) (Fin f) = Ret (Fin (wV f), Fin (waw f), CFin (wKR f) (wKI f)) /\
  0 < wV f /\ 0 <= waw f /\ cmul (cmul (CFin (1 / wV f) (- waw f / (2 * PI * f))) (CFin (1 / wV f) (- waw f / (2 * PI * f)))) (CFin (wKR f + 4/3 * Gd) (wKI f))
    = CFin wrho 0.
Proof.
  destruct w_facts as (G1 & G2 & L1 & L2 & B & _ & _ & P1 & P2). destruct w_b as (Hb & _). destruct w_D as (D1 & D2 & D3 & DK).
  assert (P := PI_RGT_0). assert (Hom : 0 < 2 * PI * f) by (apply Rmult_lt_0_compat; lra).
  destruct wc_pos as (WN & _).
  assert (K2 : 0 < K0^2) by (apply pow_lt; lra). assert (RP : 0 < Rpower sg (1/3)) by apply exp_pos.
  assert (B1 : 0 < 1 - Kf1 / K0) by (assert (Kf1 / K0 < 1); [apply div_lt_iff; lra|lra]).
  assert (B2 : 0 < 1 - Kf2 / K0) by (assert (Kf2 / K0 < 1); [apply div_lt_iff; lra|lra]).
  assert (C1 : 0 < phi * k1 * (1 - Kf1 / K0)) by (apply Rmult_lt_0_compat; [apply Rmult_lt_0_compat|]; lra).
  assert (C2 : 0 < phi * k2 * (1 - Kf2 / K0)) by (apply Rmult_lt_0_compat; [apply Rmult_lt_0_compat|]; lra).
  destruct (KE_form Kd K0 phi Kf1 HK HKf1 Hd Hp) as (F1 & _). destruct (KE_form Kd K0 phi Kf2 HK HKf2 Hd Hp) as (F2 & _).
  fold k1 g1 in F1. fold k2 g2 in F2. fold KE1 in F1. fold KE2 in F2.
  destruct wK_pos as ((KR & _) & KI).
  destruct (wave_form (wKR f + 4/3 * Gd) (wKI f) _ (2 * PI * f) ltac:(lra) KI Hrho Hom) as (HV & HA & HC & HQ & HW).
  split; [|split; [exact HV|split; [exact HA|exact HW]]].
  clear HA HW. unfold waw, wV, wrho.
  assert (gE1 : phi / Kf1 + (1 - phi) / K0 - Kd / K0^2 = g1) by reflexivity. assert (gE2 : phi / Kf2 + (1 - phi) / K0 - Kd / K0^2 = g2) by reflexivity.
  unfold Fluid_White_Dutta_Ode.
  repeat (first [fl1 | rewrite fpow_fin by lra | rewrite fdiv_fin by (assumption || lra)]; cbv beta zeta).
  rewrite !Gassmann_eval by (try fold g1; try fold g2; lra). rewrite !call_ret. cbv beta iota. fold k1 k2.
  repeat (first [fl1 | rewrite fdiv_fin by (assumption || lra)]; cbv beta zeta).
  fold Dd bt.
  repeat (first [fl1 | rewrite fdiv_fin by (assumption || lra)]; cbv beta zeta).
  rewrite !gE1, !gE2. 
  repeat (first [fl1 | rewrite fdiv_fin by (assumption || lra)]; cbv beta zeta).
  fold bt in F1, F2. rewrite F1, F2. fold b. fold wKinf. cbn [cof]. rewrite !wx_form by auto.
  match goal with |- context [cdiv (CFin ?z 0) (cmul (cmul (cmul (CFin (b^3) 0) cI) (CFin (2 * PI * f) 0)) (cadd ?z1 ?z2))] =>
    assert (EW : z = wnum) by reflexivity; assert (EZ1 : z1 = CFin (eta1 * a / kap * wz1r (wx eta1 KE1 f * a)) (- (eta1 * a / kap * wz1i (wx eta1 KE1 f * a)))); 
    [|assert (EZ2 : z2 = CFin (eta2 * a / kap * wz2r (wx eta2 KE2 f * a) (wx eta2 KE2 f * b)) (- (eta2 * a / kap * wz2i (wx eta2 KE2 f * a) (wx eta2 KE2 f * b))))] end.
  { assert (X := wx_pos eta1 KE1 He1 P1). set (x1 := wx eta1 KE1 f) in *. rewrite !cmul_fin.
    replace (x1 * a - x1 * 0) with (x1 * a) by ring. replace (x1 * 0 + x1 * a) with (x1 * a) by ring.
    match goal with |- context [cexp (CFin ?u ?v)] => replace u with (-2 * (x1 * a)) by ring; replace v with (-2 * (x1 * a)) by ring end.
    apply Z1_form. apply Rmult_lt_0_compat; auto. }
  { assert (X := wx_pos eta2 KE2 He2 P2). set (x2 := wx eta2 KE2 f) in *. rewrite !cmul_fin.
    replace (x2 * a - x2 * 0) with (x2 * a) by ring. replace (x2 * 0 + x2 * a) with (x2 * a) by ring.
    replace (x2 * b - x2 * 0) with (x2 * b) by ring. replace (x2 * 0 + x2 * b) with (x2 * b) by ring.
    match goal with |- context [cexp (CFin ?u ?v)] => replace u with (2 * (x2 * b - x2 * a)) by ring; replace v with (2 * (x2 * b - x2 * a)) by ring end.
    replace (- eta2 * a / kap) with (- (eta2 * a / kap)) by (field; lra).
    apply Z2_form; [apply Rmult_lt_0_compat; auto|apply Rmult_lt_compat_l; lra]. }
  rewrite EW, EZ1, EZ2, cadd_fin. clear EW EZ1 EZ2.
  destruct (wz1_pos (wx eta1 KE1 f * a)) as (A1 & A2); [apply Rmult_lt_0_compat; [apply wx_pos; auto|auto]|].
  destruct (wz2_pos (wx eta2 KE2 f * a) (wx eta2 KE2 f * b)) as (A3 & A4); [apply Rmult_lt_0_compat; [apply wx_pos; auto|auto]|apply Rmult_lt_compat_l; [apply wx_pos; auto|auto]|].
  assert (E1 : 0 < eta1 * a / kap) by (apply Rdiv_lt_0_compat; [apply Rmult_lt_0_compat|]; lra). assert (E2 : 0 < eta2 * a / kap) by (apply Rdiv_lt_0_compat; [apply Rmult_lt_0_compat|]; lra).
  match goal with |- context [CFin (?r1 + ?r2) (- ?i1 + - ?i2)] => replace (- i1 + - i2) with (- (i1 + i2)) by ring end.
  rewrite (Kstar_form wKinf wnum (b^3) (2 * PI * f)) by
    (first [assumption | apply pow_lt; lra | apply Rplus_lt_0_compat; apply Rmult_lt_0_compat; assumption]).
  cbv zeta. fold wc. fold (wg1 f) (wg2 f). fold (wKR f) (wKI f).
  rewrite cadd_fin. replace (wKR f + 4 * Gd / 3) with (wKR f + 4/3 * Gd) by field. replace (wKI f + 0) with (wKI f) by ring. cbn [creal cimag cabs].
  set (MR := wKR f + 4/3 * Gd) in *. set (MI := wKI f) in *. assert (0 < MR) by (unfold MR; lra).
  assert (S1 := sqrt_lt_R0 _ HQ).
  repeat (first [fl1 | rewrite fsqrt_fin by lra | rewrite ftan_fin by lra | rewrite fdiv_fin by (assumption || lra)]; cbv beta zeta).
  reflexivity.
Qed.
End Freq.
End Two.
