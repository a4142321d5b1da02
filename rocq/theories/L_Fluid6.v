(** * Fluid.py: the White-Dutta-Ode impedances have positive real part, so the call is defined. *)
From Verif Require Import Fl Cx M_Utils M_EM M_Anis M_Fluid Spec Spec2 RealLemmas L_Utils L_Anis L_Fluid1 L_Fluid4 L_Fluid5.
Open Scope R_scope.

Lemma pos_of_deriv (F F' : R -> R) t : 0 < t -> F 0 = 0 -> (forall c, derivable_pt_lim F c (F' c)) ->
  (forall c, 0 < c -> 0 < F' c) -> 0 < F t.
Proof.
  intros Ht F0 D P. destruct (MVT_cor2 F F' 0 t Ht) as (c & E & Hc); [intros; apply D|].
  assert (0 < F' c * (t - 0)) by (apply Rmult_lt_0_compat; [apply P|]; lra). lra.
Qed.
Ltac dl := repeat first [apply derivable_pt_lim_sinh | apply derivable_pt_lim_cosh | apply derivable_pt_lim_sin | apply derivable_pt_lim_cos
  | apply derivable_pt_lim_const | apply derivable_pt_lim_id
  | apply derivable_pt_lim_minus | apply derivable_pt_lim_plus | apply derivable_pt_lim_mult].
Lemma dpl_eq f x a b : derivable_pt_lim f x a -> a = b -> derivable_pt_lim f x b.
Proof. intros H <-. exact H. Qed.
Lemma cosh_gt t : 0 < t -> 1 < cosh t.
Proof.
  intros Ht. unfold cosh. assert (X := exp_ineq1 t ltac:(lra)). 
  assert (P := exp_pos t). assert (E : exp t * exp (- t) = 1) by (rewrite <- exp_plus; replace (t + - t) with 0 by ring; apply exp_0).
  assert (Q := exp_pos (- t)). nra.
Qed.
Lemma sinh_sin t : 0 < t -> 0 < sinh t - sin t.
Proof.
  intros Ht. apply (pos_of_deriv (fun t => sinh t - sin t) (fun t => cosh t - cos t)); auto.
  - rewrite sinh_0, sin_0. ring.
  - intros c. change (fun t => sinh t - sin t) with (minus_fct sinh sin). dl.
  - intros c Hc. assert (X := cosh_gt c Hc). assert (Y := COS_bound c). lra.
Qed.
Definition wf1 (t : R) := t * (cosh t + cos t) - (sinh t + sin t).
Definition wf (t : R) := t / 2 * (sinh t + sin t) - cosh t + cos t.
Lemma wf1_deriv c : derivable_pt_lim wf1 c (c * (sinh c - sin c)).
Proof.
  unfold wf1. change (fun t => t * (cosh t + cos t) - (sinh t + sin t)) with (minus_fct (mult_fct id (plus_fct cosh cos)) (plus_fct sinh sin)).
  eapply dpl_eq; [dl|]. unfold id, plus_fct. ring.
Qed.
Lemma wf_deriv c : derivable_pt_lim wf c (wf1 c / 2).
Proof.
  unfold wf. change (fun t => t / 2 * (sinh t + sin t) - cosh t + cos t) with
   (plus_fct (minus_fct (mult_fct (mult_fct id (fct_cte (/ 2))) (plus_fct sinh sin)) cosh) cos).
  eapply dpl_eq; [dl|]. unfold wf1, id, plus_fct, fct_cte, mult_fct. field.
Qed.
Lemma wf1_pos t : 0 < t -> 0 < wf1 t.
Proof.
  intros Ht. apply (pos_of_deriv wf1 (fun c => c * (sinh c - sin c))); auto.
  - unfold wf1. rewrite sinh_0, sin_0. ring.
  - intros; apply wf1_deriv.
  - intros c Hc. apply Rmult_lt_0_compat; [auto|apply sinh_sin; auto].
Qed.
Lemma wf_pos t : 0 < t -> 0 < wf t.
Proof.
  intros Ht. apply (pos_of_deriv wf (fun c => wf1 c / 2)); auto.
  - unfold wf. rewrite cosh_0, cos_0, sinh_0, sin_0. field.
  - intros; apply wf_deriv.
  - intros c Hc. assert (X := wf1_pos c Hc). lra.
Qed.
Lemma wf_convex t : 0 < t -> 0 < t / 2 * wf1 t - wf t.
Proof.
  intros Ht. apply (pos_of_deriv (fun t => t / 2 * wf1 t - wf t) (fun c => c / 2 * (c * (sinh c - sin c)))); auto.
  - unfold wf, wf1. rewrite cosh_0, cos_0, sinh_0, sin_0. field.
  - intros c. change (fun t => t / 2 * wf1 t - wf t) with (minus_fct (mult_fct (mult_fct id (fct_cte (/ 2))) wf1) wf).
    eapply dpl_eq; [apply derivable_pt_lim_minus; [apply derivable_pt_lim_mult; [dl|apply wf1_deriv]|apply wf_deriv]|].
    unfold id, fct_cte, mult_fct. field.
  - intros c Hc. assert (X := sinh_sin c Hc). apply Rmult_lt_0_compat; [lra|apply Rmult_lt_0_compat; lra].
Qed.

(** Real part of a complex quotient. *)
Lemma cdiv_re K n1 n2 d1 d2 : 0 < K -> 0 < n1 * d1 + n2 * d2 ->
  exists r i, cdiv (cmul (CFin K 0) (CFin n1 n2)) (CFin d1 d2) = CFin r i /\ 0 < r.
Proof.
  intros HK HP. assert (N : d1^2 + d2^2 <> 0).
  { intros E. apply sumsq_0 in E. destruct E as (-> & ->). lra. }
  assert (0 < d1^2 + d2^2). { assert (0 <= d1^2) by apply pow2_ge_0. assert (0 <= d2^2) by apply pow2_ge_0. lra. }
  rewrite cmul_fin, cdiv_fin by auto. do 2 eexists. split; [reflexivity|].
  apply Rdiv_lt_0_compat; [|auto]. replace ((K * n1 - 0 * n2) * d1 + (K * n2 + 0 * n1) * d2) with (K * (n1 * d1 + n2 * d2)) by ring.
  apply Rmult_lt_0_compat; auto.
Qed.
Lemma csqrt_imag y : 0 < y -> csqrt (CFin 0 y) = CFin (sqrt (y / 2)) (sqrt (y / 2)).
Proof.
  intros Hy. cbn [csqrt]. destruct (Req_EM_T y 0); [lra|]. destruct (Rlt_dec 0 y); [|lra].
  replace (0^2 + y^2) with (y^2) by ring. rewrite sqrt_pow2 by lra. apply cfin_eq; f_equal; field.
Qed.

Section Imp.
Variables (K X : R).
Hypotheses (HK : 0 < K) (HX : 0 < X).
Lemma Z1_re : exists r i,
  cdiv (cmul (CFin K 0) (csub (CFin 1 0) (cexp (CFin (-2 * X) (-2 * X)))))
       (cadd (csub (CFin X X) (CFin 1 0)) (cmul (cadd (CFin X X) (CFin 1 0)) (cexp (CFin (-2 * X) (-2 * X))))) = CFin r i /\ 0 < r.
Proof.
  cbn [cexp]. repeat first [rewrite csub_fin | rewrite cadd_fin | rewrite cmul_fin]. rewrite <- cmul_fin. apply cdiv_re; [auto|].
  set (E := exp (-2 * X)). assert (EP : 0 < E) by apply exp_pos.
  replace (-2 * X) with (- (2 * X)) by ring. rewrite cos_neg, sin_neg.
  assert (W := wf_pos (2 * X) ltac:(lra)). unfold wf, sinh, cosh in W.
  assert (EE : exp (2 * X) * E = 1) by (unfold E; rewrite <- exp_plus; replace (2 * X + -2 * X) with 0 by ring; apply exp_0).
  replace (exp (- (2 * X))) with E in W by (unfold E; f_equal; ring).
  set (c := cos (2 * X)) in *. set (s := sin (2 * X)) in *. set (P := exp (2 * X)) in *.
  assert (CS : c * c + s * s = 1) by (unfold c, s; assert (T := sin2_cos2 (2 * X)); unfold Rsqr in T; lra).
  match goal with |- 0 < ?g => assert (Eq : g = 2 * E * (2 * X / 2 * ((P - E) / 2 + s) - (P + E) / 2 + c)) end.
  { transitivity (X * (1 - E * E * (c * c + s * s) + 2 * E * s) - (1 - 2 * E * c + E * E * (c * c + s * s))); [ring|].
    rewrite CS. transitivity (X * (P * E) - X * E * E + 2 * X * E * s - P * E - E * E + 2 * E * c); [rewrite EE; ring|field]. }
  rewrite Eq. apply Rmult_lt_0_compat; [lra|exact W].
Qed.
Variable Y : R.
Hypothesis HY : X < Y.
Lemma Z2_re : exists r i,
  cdiv (cmul (CFin (- K) 0) (cadd (cadd (CFin Y Y) (CFin 1 0)) (cmul (csub (CFin Y Y) (CFin 1 0)) (cexp (CFin (2 * (Y - X)) (2 * (Y - X)))))))
       (csub (cmul (cadd (CFin Y Y) (CFin 1 0)) (csub (CFin X X) (CFin 1 0)))
             (cmul (cmul (csub (CFin Y Y) (CFin 1 0)) (cadd (CFin X X) (CFin 1 0))) (cexp (CFin (2 * (Y - X)) (2 * (Y - X)))))) = CFin r i /\ 0 < r.
Proof.
  cbn [cexp]. repeat first [rewrite csub_fin | rewrite cadd_fin | rewrite cmul_fin]. rewrite <- (cmul_fin (- K) 0).
  set (t := 2 * (Y - X)). assert (Ht : 0 < t) by (unfold t; lra).
  set (P := exp t). assert (PP : 0 < P) by apply exp_pos.
  assert (PQ : P * exp (- t) = 1) by (unfold P; rewrite <- exp_plus; replace (t + - t) with 0 by ring; apply exp_0).
  assert (W1 := wf1_pos t Ht). assert (W2 := wf_convex t Ht). assert (W3 := sinh_sin t Ht).
  unfold wf, wf1, sinh, cosh in *. fold P in W1, W2, W3. set (Q := exp (- t)) in *.
  set (c := cos t) in *. set (s := sin t) in *.
  assert (CS : c * c + s * s = 1) by (unfold c, s; assert (T := sin2_cos2 t); unfold Rsqr in T; lra).
  set (n1 := Y + 1 + ((Y - 1) * (P * c) - (Y - 0) * (P * s))). set (n2 := Y + 0 + ((Y - 1) * (P * s) + (Y - 0) * (P * c))).
  match goal with |- context [cdiv _ (CFin ?u ?v)] => set (d1 := u); set (d2 := v) end.
  assert (H : 0 < (- n1) * d1 + (- n2) * d2).
  { assert (Eq : (- n1) * d1 + (- n2) * d2 =
      Y * t * (P * P * (c * c + s * s) + 1 + 2 * P * c) + (P * P * (c * c + s * s) + 1 - 2 * P * c)
      + 2 * X * Y * Y * (P * P * (c * c + s * s) - 1 - 2 * P * s) - (Y + t / 2) * (P * P * (c * c + s * s) - 1 + 2 * P * s)).
    { unfold n1, n2, d1, d2, t. field. }
    rewrite Eq, CS.
    match goal with |- 0 < ?g => assert (Eq2 : g = 2 * P * (Y * (t * ((P + Q) / 2 + c) - ((P - Q) / 2 + s)) + ((P + Q) / 2 - c) 
       - t / 2 * ((P - Q) / 2 + s) + 2 * X * Y * Y * ((P - Q) / 2 - s))) end.
    { transitivity (Y * t * (P * P + P * Q + 2 * P * c) + (P * P + P * Q - 2 * P * c)
      + 2 * X * Y * Y * (P * P - P * Q - 2 * P * s) - (Y + t / 2) * (P * P - P * Q + 2 * P * s)); [rewrite PQ; ring|field]. }
    rewrite Eq2. apply Rmult_lt_0_compat; [lra|].
    assert (0 < X * Y * Y * ((P - Q) / 2 - s)) by (apply Rmult_lt_0_compat; [apply Rmult_lt_0_compat; [apply Rmult_lt_0_compat|]|]; lra).
    set (w := t * ((P + Q) / 2 + c) - ((P - Q) / 2 + s)) in *.
    assert (0 < X * w) by (apply Rmult_lt_0_compat; lra).
    assert (Y * w = X * w + t / 2 * w) by (unfold t; field). lra. }
  replace (cmul (CFin (- K) 0) (CFin n1 n2)) with (cmul (CFin K 0) (CFin (- n1) (- n2))).
  2:{ rewrite !cmul_fin. apply cfin_eq; ring. }
  apply cdiv_re; auto.
Qed.
End Imp.

Section Whole.
Variables (m : mode) (Kd Gd K0 phi r0 rf Kf eta1 eta2 kap a sg f : R).
Hypotheses (HK : 0 < K0) (HKf : 0 < Kf < K0) (Hd : 0 < Kd < K0) (HG : 0 <= Gd) (Hp : 0 < phi <= 1)
  (Hs : 0 < sg < 1) (Hk : 0 < kap) (Hrho : 0 < (1 - phi) * r0 + phi * rf) (He1 : 0 < eta1) (He2 : 0 < eta2)
  (Ha : 0 < a) (Hf : 0 < f).
Let k := gK Kd K0 Kf phi.
Let g := gB Kd K0 Kf phi.
Lemma KE_form : (1 - Kf * (1 - k / K0) * (1 - Kd / K0) / (phi * k * (1 - Kf / K0))) * (1 / g) = Kd / (k * g) /\ 0 < Kd / (k * g).
Proof.
  assert (gp : 0 < g).
  { assert (x := gb_pos Kd K0 HK ltac:(lra)). assert (y := gB_pos Kd K0 Kf phi HK ltac:(lra) ltac:(lra)). unfold g. lra. }
  destruct (gK_range Kd K0 Kf phi HK ltac:(lra) ltac:(lra) Hp) as (L & U). fold k in L, U.
  split; [|apply Rdiv_lt_0_compat; [lra|apply Rmult_lt_0_compat; lra]].
  assert (EX : K0 - k = (K0 - Kd) * (phi * (K0 - Kf)) / (K0 * Kf * g)).
  { assert (Hk2 : k = Kd + (1 - Kd / K0)^2 / g) by reflexivity. rewrite Hk2.
    assert (Hg : phi * (K0 - Kf) = (g - (K0 - Kd) / K0^2) * (Kf * K0)) by (unfold g, gB; field; lra).
    rewrite Hg. field. lra. }
  assert (E1 : 1 - k / K0 = (K0 - Kd) * (phi * (K0 - Kf)) / (K0 * Kf * g) / K0) by (rewrite <- EX; field; lra).
  rewrite E1. assert (E2 : k - Kd = (1 - Kd / K0)^2 / g) by (unfold k, gK; fold g; ring).
  transitivity ((1 - (1 - Kd / K0)^2 / g / k) / g).
  - field. repeat split; try lra.
  - rewrite <- E2. field. lra.
Qed.
Lemma wal_eval eta : 0 < eta -> exists x, 0 < x /\ wal Kd K0 phi Kf kap f eta = CFin x x.
Proof.
  intros He. destruct KE_form as (E & P). unfold wal. fold k g. rewrite E.
  assert (Q : 0 < kap * (Kd / (k * g))) by (apply Rmult_lt_0_compat; auto). set (D := kap * (Kd / (k * g))) in *.
  assert (Pi := PI_RGT_0). set (om := 2 * PI * f). assert (Ho : 0 < om) by (unfold om; apply Rmult_lt_0_compat; lra).
  unfold cI. rewrite !cmul_fin. rewrite cdiv_fin by (apply sumsq_nz; left; lra).
  assert (Y : 0 < om * eta / D) by (apply Rdiv_lt_0_compat; [apply Rmult_lt_0_compat|]; lra).
  exists (sqrt (om * eta / D / 2)). split; [apply sqrt_lt_R0; lra|].
  rewrite <- csqrt_imag by auto. f_equal. apply cfin_eq; field; lra.
Qed.
Lemma White_equal : exists Ks, Fluid_Gassmann m (Fin Kd) (Fin Gd) (Fin K0) (Fin Kf) (Fin phi) = Ret (Fin Ks, Fin Gd) /\
  Fluid_White_Dutta_Ode m (Fin Kd) (Fin Gd) (Fin K0) (Fin phi) (Fin r0) (Fin rf) (Fin rf) (Fin Kf) (Fin Kf)
    (Fin eta1) (Fin eta2) (Fin kap) (Fin a) (Fin sg) (Fin f)
  = Ret (Fin (sqrt ((Ks + 4/3*Gd) / ((1 - phi) * r0 + phi * rf))), Fin 0, CFin Ks 0).
Proof.
  exists k. split.
  { assert (x := gb_pos Kd K0 HK ltac:(lra)). assert (y := gB_pos Kd K0 Kf phi HK ltac:(lra) ltac:(lra)). apply Gassmann_eval; lra. }
  apply (proj1 (White_step m Kd Gd K0 phi r0 rf Kf eta1 eta2 kap a sg f HK HKf Hd HG Hp ltac:(lra) ltac:(lra) Hrho)).
  assert (Pi := PI_RGT_0). 
  assert (RP : 0 < Rpower sg (1/3)) by apply exp_pos.
  assert (R1 : Rpower sg (1/3) < 1).
  { unfold Rpower. rewrite <- exp_0 at 2. apply exp_increasing. assert (ln sg < 0) by (rewrite <- ln_1; apply ln_increasing; lra). lra. }
  set (b := a / Rpower sg (1/3)).
  assert (Hb : a < b) by (unfold b; apply lt_div_iff; [auto|]; nra).
  assert (Hom : 0 < 2 * PI * f) by (apply Rmult_lt_0_compat; lra).
  destruct (wal_eval eta1 He1) as (x1 & P1 & W1). destruct (wal_eval eta2 He2) as (x2 & P2 & W2).
  assert (Z1 : exists r i, wZ1 Kd K0 phi Kf eta1 kap a f = CFin r i /\ 0 < r).
  { unfold wZ1. rewrite W1. rewrite !cmul_fin.
    replace (x1 * a - x1 * 0) with (x1 * a) by ring. replace (x1 * 0 + x1 * a) with (x1 * a) by ring.
    match goal with |- context [cexp (CFin ?u ?v)] => replace u with (-2 * (x1 * a)) by ring; replace v with (-2 * (x1 * a)) by ring end.
    apply Z1_re; [apply Rdiv_lt_0_compat; [apply Rmult_lt_0_compat|]; lra|apply Rmult_lt_0_compat; lra]. }
  assert (Z2 : exists r i, wZ2 Kd K0 phi Kf eta2 kap a sg f = CFin r i /\ 0 < r).
  { unfold wZ2. fold b. rewrite W2. rewrite !cmul_fin.
    replace (x2 * a - x2 * 0) with (x2 * a) by ring. replace (x2 * 0 + x2 * a) with (x2 * a) by ring.
    replace (x2 * b - x2 * 0) with (x2 * b) by ring. replace (x2 * 0 + x2 * b) with (x2 * b) by ring.
    match goal with |- context [cexp (CFin ?u ?v)] => replace u with (2 * (x2 * b - x2 * a)) by ring; replace v with (2 * (x2 * b - x2 * a)) by ring end.
    replace (- eta2 * a / kap) with (- (eta2 * a / kap)) by (field; lra).
    apply Z2_re; [apply Rdiv_lt_0_compat; [apply Rmult_lt_0_compat|]; lra|apply Rmult_lt_0_compat; lra|apply Rmult_lt_compat_l; lra]. }
  destruct Z1 as (u1 & v1 & E1 & Q1). destruct Z2 as (u2 & v2 & E2 & Q2).
  unfold wDen. rewrite E1, E2. fold b. unfold cI. repeat first [rewrite cadd_fin | rewrite cmul_fin].
  split; [discriminate|]. intros E. injection E as F1 F2.
  assert (0 < b^3) by (apply pow_lt; lra). 
  assert (X : b^3 * (2 * PI * f) * (u1 + u2) = 0) by (rewrite <- F2; cbn [pow]; ring).
  assert (0 < b^3 * (2 * PI * f) * (u1 + u2)) by (apply Rmult_lt_0_compat; [apply Rmult_lt_0_compat|]; lra). lra.
Qed.
End Whole.
