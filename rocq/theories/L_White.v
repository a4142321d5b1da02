(** * Fluid.py: White-Dutta-Ode solves the diffusion problem of Spec13. *)
From Coquelicot Require Import Coquelicot.
From Verif Require Import Fl Cx M_Utils M_EM M_Anis M_Fluid Spec Spec2 Spec9 Spec13 RealLemmas L_Utils L_Anis L_Fluid1 L_Fluid4 L_Fluid5 L_Fluid6 L_Fluid9 L_EM8.
Open Scope R_scope.

(** ** Green's identity *)
Lemma dmul f g r a b : derivable_pt_lim f r a -> derivable_pt_lim g r b -> derivable_pt_lim (fun x => f x * g x) r (a * g r + f r * b).
Proof. intros. apply (derivable_pt_lim_mult f g); auto. Qed.
Lemma dadd f g r a b : derivable_pt_lim f r a -> derivable_pt_lim g r b -> derivable_pt_lim (fun x => f x + g x) r (a + b).
Proof. intros. apply (derivable_pt_lim_plus f g); auto. Qed.
Lemma dsub f g r a b : derivable_pt_lim f r a -> derivable_pt_lim g r b -> derivable_pt_lim (fun x => f x - g x) r (a - b).
Proof. intros. apply (derivable_pt_lim_minus f g); auto. Qed.
Definition grR (pr pi gr gi Pr Pi Gr Gi : R -> R) (x : R) :=
  (x^2 * gr x * Pr x - x^2 * gi x * Pi x) - (pr x * (x^2 * Gr x) - pi x * (x^2 * Gi x)).
Definition grI (pr pi gr gi Pr Pi Gr Gi : R -> R) (x : R) :=
  (x^2 * gr x * Pi x + x^2 * gi x * Pr x) - (pr x * (x^2 * Gi x) + pi x * (x^2 * Gr x)).
Lemma green_d lo hi beta pr pi gr gi Pr Pi Gr Gi r : radial_diffusion lo hi beta pr pi gr gi -> radial_diffusion lo hi beta Pr Pi Gr Gi ->
  0 < r -> lo <= r <= hi -> derivable_pt_lim (grR pr pi gr gi Pr Pi Gr Gi) r 0 /\ derivable_pt_lim (grI pr pi gr gi Pr Pi Gr Gi) r 0.
Proof.
  intros H1 H2 Hr Hl. destruct (H1 r Hr Hl) as (A1 & A2 & A3 & A4). destruct (H2 r Hr Hl) as (B1 & B2 & B3 & B4).
  split.
  - unfold grR. eapply dpl_eq; [apply dsub; [apply dsub; apply (dmul (fun x => x^2 * _ x)); eassumption|apply dsub; apply (dmul _ (fun x => x^2 * _ x)); eassumption]|]. cbv beta. ring.
  - unfold grI. eapply dpl_eq; [apply dsub; [apply dadd; apply (dmul (fun x => x^2 * _ x)); eassumption|apply dadd; apply (dmul _ (fun x => x^2 * _ x)); eassumption]|]. cbv beta. ring.
Qed.
Lemma const_between f r1 r2 : r1 <= r2 -> (forall c, r1 <= c <= r2 -> derivable_pt_lim f c 0) -> f r1 = f r2.
Proof.
  intros [H|H] D; [|subst; reflexivity]. destruct (MVT_cor2 f (fun _ => 0) r1 r2 H D) as (c & E & _). lra.
Qed.
Lemma green_c lo hi beta pr pi gr gi Pr Pi Gr Gi r1 r2 : radial_diffusion lo hi beta pr pi gr gi -> radial_diffusion lo hi beta Pr Pi Gr Gi ->
  0 < r1 -> lo <= r1 -> r1 <= r2 -> r2 <= hi -> grR pr pi gr gi Pr Pi Gr Gi r1 = grR pr pi gr gi Pr Pi Gr Gi r2 /\ grI pr pi gr gi Pr Pi Gr Gi r1 = grI pr pi gr gi Pr Pi Gr Gi r2.
Proof.
  intros H1 H2 A B C D. split; apply const_between; auto; intros c Hc; apply (green_d lo hi beta); auto; lra.
Qed.

(** ** Reference solutions: u = sinh (alpha (r - d)) + (h + i h) cosh (alpha (r - d)), alpha = x + i x. *)
Section Ref.
Variables (x d h : R).
Definition cR (t : R) := cosh t * cos t.
Definition cJ (t : R) := sinh t * sin t.
Definition sR (t : R) := sinh t * cos t.
Definition sJ (t : R) := cosh t * sin t.
Definition uR (r : R) := let t := x * (r - d) in sR t + h * (cR t - cJ t).
Definition uI (r : R) := let t := x * (r - d) in sJ t + h * (cR t + cJ t).
Definition vR (r : R) := let t := x * (r - d) in x * (cR t - cJ t) - 2 * x * h * sJ t.
Definition vI (r : R) := let t := x * (r - d) in x * (cR t + cJ t) + 2 * x * h * sR t.
Ltac der r := cbv zeta; unfold uR, uI, vR, vI, cR, cJ, sR, sJ, sinh, cosh; apply is_derive_Reals; auto_derive; [tauto|change (r + - d) with (r - d); field].
Lemma uR_d r : derivable_pt_lim uR r (vR r). Proof. der r. Qed.
Lemma uI_d r : derivable_pt_lim uI r (vI r). Proof. der r. Qed.
Lemma vR_d r : derivable_pt_lim vR r (- (2 * x^2 * uI r)). Proof. der r. Qed.
Lemma vI_d r : derivable_pt_lim vI r (2 * x^2 * uR r). Proof. der r. Qed.
Definition PR (r : R) := uR r / r.
Definition PJ (r : R) := uI r / r.
Definition GR (r : R) := (r * vR r - uR r) / r^2.
Definition GJ (r : R) := (r * vI r - uI r) / r^2.
Lemma d_near f g r l : 0 < r -> (forall y, 0 < y -> f y = g y) -> derivable_pt_lim f r l -> derivable_pt_lim g r l.
Proof.
  intros Hr E D. apply is_derive_Reals. apply is_derive_Reals in D. apply (is_derive_ext_loc f); auto.
  exists (mkposreal r Hr). intros y Hy. apply E. change (Rabs (y - r) < r) in Hy. apply Rabs_def2 in Hy. lra.
Qed.
Lemma ref_diffuses lo hi : radial_diffusion lo hi (2 * x^2) PR PJ GR GJ.
Proof.
  intros r Hr _. assert (DI : derivable_pt_lim (fun y => y) r 1) by apply derivable_pt_lim_id.
  assert (Q : forall u v, derivable_pt_lim u r (v r) -> derivable_pt_lim (fun y => u y / y) r ((r * v r - u r) / r^2)).
  { intros u v D. eapply dpl_eq; [apply (derivable_pt_lim_div u (fun y => y)); [exact D|exact DI|lra]|]. unfold Rsqr. field. lra. }
  assert (Q2 : forall u v w, derivable_pt_lim u r (v r) -> derivable_pt_lim v r w -> derivable_pt_lim (fun y => y^2 * ((y * v y - u y) / y^2)) r (r * w)).
  { intros u v w D1 D2. apply (d_near (fun y => y * v y - u y)); auto; [intros y Hy; field; lra|].
    eapply dpl_eq; [apply dsub; [apply dmul; [exact DI|exact D2]|exact D1]|]. cbv beta. ring. }
  split; [apply (Q uR vR), uR_d|]. split; [apply (Q uI vI), uI_d|]. split.
  - eapply dpl_eq; [apply (Q2 uR vR); [apply uR_d|apply vR_d]|]. unfold PJ. field. lra.
  - eapply dpl_eq; [apply (Q2 uI vI); [apply uI_d|apply vI_d]|]. unfold PR. field. lra.
Qed.
End Ref.

(** ** Impedances *)
Lemma dbl t : cosh t * cosh t = 1 + sinh t * sinh t /\ cos t * cos t = 1 - sin t * sin t /\ cosh (2 * t) = 1 + 2 * (sinh t * sinh t) /\ sinh (2 * t) = 2 * (sinh t * cosh t)
  /\ cos (2 * t) = 1 - 2 * (sin t * sin t) /\ sin (2 * t) = 2 * (sin t * cos t).
Proof.
  assert (E : exp (2 * t) = exp t * exp t) by (rewrite <- exp_plus; f_equal; ring).
  assert (E' : exp (- (2 * t)) = exp (- t) * exp (- t)) by (rewrite <- exp_plus; f_equal; ring).
  assert (U : exp t * exp (- t) = 1) by (rewrite <- exp_plus; replace (t + - t) with 0 by ring; apply exp_0).
  assert (T := sin2_cos2 t). unfold Rsqr in T.
  split; [unfold cosh, sinh; nra|]. split; [lra|]. split; [unfold cosh, sinh; rewrite E, E'; nra|]. split; [unfold cosh, sinh; rewrite E, E'; nra|].
  split; [rewrite cos_2a; lra|]. rewrite sin_2a. ring.
Qed.
Lemma quot n1 n2 d1 d2 r i N : 0 < N -> d1^2 + d2^2 = N -> n1 * d1 + n2 * d2 = r -> n2 * d1 - n1 * d2 = - i ->
  n1 = r / N * d1 + i / N * d2 /\ n2 = r / N * d2 - i / N * d1.
Proof.
  intros HN E1 E2 E3. split.
  - transitivity ((r * d1 + i * d2) / N); [|field; lra]. replace i with (- (n2 * d1 - n1 * d2)) by lra. rewrite <- E2. replace N with (d1^2 + d2^2). field. lra.
  - transitivity ((r * d2 - i * d1) / N); [|field; lra]. replace i with (- (n2 * d1 - n1 * d2)) by lra. rewrite <- E2. replace N with (d1^2 + d2^2). field. lra.
Qed.
Lemma sphere_imp X : 0 < X -> let d1 := X * (cR X - cJ X) - sR X in let d2 := X * (cR X + cJ X) - sJ X in
  0 < d1^2 + d2^2 /\ sR X = wz1r X * d1 + wz1i X * d2 /\ sJ X = wz1r X * d2 - wz1i X * d1.
Proof.
  intros HX d1 d2. destruct (dbl X) as (H1 & H2 & H3 & H4 & H5 & H6).
  assert (N := wn1_pos X HX). assert (C := coshcos (2 * X) ltac:(lra)).
  assert (A1 : sR X * d1 + sJ X * d2 = wf (2 * X) / 2).
  { unfold d1, d2, wf, sR, sJ, cR, cJ. rewrite H3, H4, H5, H6. field [H1 H2]. }
  assert (A2 : sJ X * d1 - sR X * d2 = - (X * (sinh (2 * X) - sin (2 * X)) / 2)).
  { unfold d1, d2, wf, sR, sJ, cR, cJ. rewrite H4, H6. field [H1 H2]. }
  assert (A3 : sR X^2 + sJ X^2 = (cosh (2 * X) - cos (2 * X)) / 2).
  { unfold sR, sJ. rewrite H3, H5. field [H1 H2]. }
  assert (A4 : (sR X^2 + sJ X^2) * (d1^2 + d2^2) = (sR X * d1 + sJ X * d2)^2 + (sJ X * d1 - sR X * d2)^2) by ring.
  rewrite A1, A2, A3 in A4.
  assert (A5 : d1^2 + d2^2 = wn1 X / (2 * (cosh (2 * X) - cos (2 * X)))).
  { apply (Rmult_eq_reg_l ((cosh (2 * X) - cos (2 * X)) / 2)); [|lra]. rewrite A4. unfold wn1. field. lra. }
  assert (P : 0 < wn1 X / (2 * (cosh (2 * X) - cos (2 * X)))) by (apply Rdiv_lt_0_compat; lra).
  split; [lra|]. destruct (quot (sR X) (sJ X) d1 d2 _ _ _ P A5 A1 A2) as (B1 & B2).
  split; [rewrite B1 at 1|rewrite B2 at 1]; unfold wz1r, wz1i; field; lra.
Qed.
Lemma shell_imp X Y : 0 < X -> X < Y -> let t := X - Y in
  let u1 := sR t + Y * (cR t - cJ t) in let u2 := sJ t + Y * (cR t + cJ t) in
  let d1 := X * (cR t - cJ t) - 2 * X * Y * sJ t - u1 in let d2 := X * (cR t + cJ t) + 2 * X * Y * sR t - u2 in
  0 < d1^2 + d2^2 /\ - u1 = wz2r X Y * d1 + wz2i X Y * d2 /\ - u2 = wz2r X Y * d2 - wz2i X Y * d1.
Proof.
  intros HX HY t u1 u2 d1 d2. destruct (dbl (Y - X)) as (H1 & H2 & H3 & H4 & H5 & H6).
  assert (N := wn2_pos X Y HX HY).
  assert (T : t = - (Y - X)) by (unfold t; ring).
  assert (S1 : sinh t = - sinh (Y - X)) by (rewrite T; unfold sinh; rewrite Ropp_involutive; field).
  assert (S2 : cosh t = cosh (Y - X)) by (rewrite T; unfold cosh; rewrite Ropp_involutive; field).
  assert (S3 : sin t = - sin (Y - X)) by (rewrite T; apply sin_neg).
  assert (S4 : cos t = cos (Y - X)) by (rewrite T; apply cos_neg).
  assert (A1 : - u1 * d1 + - u2 * d2 = wz2r X Y * wn2 X Y).
  { unfold wz2r. cbv zeta. unfold wf, wf1. transitivity (X * Y^2 * (sinh (2 * (Y - X)) - sin (2 * (Y - X))) + Y / 2 * (2 * (Y - X) * (cosh (2 * (Y - X)) + cos (2 * (Y - X))) - (sinh (2 * (Y - X)) + sin (2 * (Y - X)))) 
    - (2 * (Y - X) / 2 * (sinh (2 * (Y - X)) + sin (2 * (Y - X))) - cosh (2 * (Y - X)) + cos (2 * (Y - X))) / 2); [|field; lra].
    rewrite H3, H4, H5, H6. unfold d1, d2, u1, u2, sR, sJ, cR, cJ. rewrite S1, S2, S3, S4. field [H1 H2]. }
  assert (A2 : - u2 * d1 - - u1 * d2 = - (wz2i X Y * wn2 X Y)).
  { unfold wz2i. cbv zeta. transitivity (- (X * ((sinh (2 * (Y - X)) - sin (2 * (Y - X))) / 2 + Y * (Y * (sinh (2 * (Y - X)) + sin (2 * (Y - X))) - (cosh (2 * (Y - X)) - cos (2 * (Y - X))))))); [|field; lra].
    rewrite H3, H4, H5, H6. unfold d1, d2, u1, u2, sR, sJ, cR, cJ. rewrite S1, S2, S3, S4. field [H1 H2]. }
  assert (A3 : d1^2 + d2^2 = wn2 X Y).
  { unfold wn2. cbv zeta. unfold wk. rewrite H3, H4, H5, H6. unfold d1, d2, u1, u2, sR, sJ, cR, cJ. rewrite S1, S2, S3, S4. field [H1 H2]. }
  split; [lra|]. destruct (quot _ _ _ _ _ _ _ N A3 A1 A2) as (B1 & B2).
  split; [rewrite B1 at 1|rewrite B2 at 1]; field; lra.
Qed.

(** ** The sphere and the shell *)
Lemma cfin_inv a b c d : CFin a b = CFin c d -> a = c /\ b = d.
Proof. intros E. split; congruence. Qed.
Lemma cancel d1 d2 e1 e2 : 0 < d1^2 + d2^2 -> d1 * e1 - d2 * e2 = 0 -> d1 * e2 + d2 * e1 = 0 -> e1 = 0 /\ e2 = 0.
Proof.
  intros H A B. assert (F1 : (d1^2 + d2^2) * e1 = 0) by (transitivity (d1 * (d1 * e1 - d2 * e2) + d2 * (d1 * e2 + d2 * e1)); [ring|rewrite A, B; ring]).
  assert (F2 : (d1^2 + d2^2) * e2 = 0) by (transitivity (d1 * (d1 * e2 + d2 * e1) - d2 * (d1 * e1 - d2 * e2)); [ring|rewrite A, B; ring]).
  split; [destruct (Rmult_integral _ _ F1)|destruct (Rmult_integral _ _ F2)]; lra.
Qed.
Lemma const_lim f a c : 0 < a -> (forall r, 0 < r <= a -> f r = c) -> limit1_in f (fun r => 0 < r) 0 0 -> c = 0.
Proof.
  intros Ha E L. destruct (Req_dec c 0) as [|N]; [assumption|exfalso]. destruct (L (Rabs c) (Rabs_pos_lt _ N)) as (dl & Hd & HL).
  assert (Hm : 0 < Rmin (dl / 2) a) by (apply Rmin_pos; lra). assert (M1 := Rmin_l (dl / 2) a). assert (M2 := Rmin_r (dl / 2) a).
  specialize (HL (Rmin (dl / 2) a)). cbn in HL. unfold R_dist in HL. rewrite !Rminus_0_r in HL. rewrite E in HL by lra.
  assert (X : Rabs c < Rabs c); [|lra]. apply HL. split; [exact Hm|]. rewrite Rabs_right by lra. lra.
Qed.
Lemma lim_quot u v : (forall r, derivable_pt_lim u r (v r)) -> u 0 = 0 -> limit1_in (fun r => u r / r) (fun r => 0 < r) (v 0) 0.
Proof.
  intros D U0 e He. destruct (D 0 e He) as (dl & HD). exists dl. split; [apply cond_pos|]. cbn. unfold R_dist. intros y (Y1 & Y2).
  rewrite Rminus_0_r in Y2. specialize (HD y ltac:(lra) Y2). rewrite Rplus_0_l, U0, Rminus_0_r in HD. exact HD.
Qed.
Lemma lim_flux u v : (forall r, derivable_pt_lim u r (v r)) -> continuity_pt v 0 -> u 0 = 0 -> limit1_in (fun r => r^2 * ((r * v r - u r) / r^2) / r) (fun r => 0 < r) 0 0.
Proof.
  intros D C U0. apply (lim_ext (fun r => v r - u r / r)); [|intros r Hr; field; lra].
  eapply lim_eq; [apply limit_minus; [apply lim_cont, C|apply (lim_quot u v D U0)]|]. ring.
Qed.
Section Sphere.
Variables (x a : R) (pr pi gr gi : R -> R).
Hypotheses (Hx : 0 < x) (Ha : 0 < a) (HD : radial_diffusion 0 a (2 * x^2) pr pi gr gi).
Lemma sphere_rel : regular_centre pr pi gr gi ->
  pr a = a * (wz1r (x * a) * gr a + wz1i (x * a) * gi a) /\ pi a = a * (wz1r (x * a) * gi a - wz1i (x * a) * gr a).
Proof.
  intros (L1 & L2 & L3 & L4). assert (HX : 0 < x * a) by (apply Rmult_lt_0_compat; auto).
  assert (Z : uR x 0 0 0 = 0 /\ uI x 0 0 0 = 0). { unfold uR, uI, sR, sJ, cR, cJ. cbv zeta. rewrite Rminus_0_r, Rmult_0_r, sinh_0, sin_0. split; ring. }
  destruct Z as (Z1 & Z2).
  assert (Q1 := lim_quot _ _ (uR_d x 0 0) Z1). assert (Q2 := lim_quot _ _ (uI_d x 0 0) Z2).
  assert (C1 : continuity_pt (vR x 0 0) 0) by (apply derivable_continuous_pt; eexists; apply vR_d).
  assert (C2 : continuity_pt (vI x 0 0) 0) by (apply derivable_continuous_pt; eexists; apply vI_d).
  assert (F1 := lim_flux _ _ (uR_d x 0 0) C1 Z1). assert (F2 := lim_flux _ _ (uI_d x 0 0) C2 Z2).
  fold (PR x 0 0) in Q1. fold (PJ x 0 0) in Q2.
  set (W1 := grR pr pi gr gi (PR x 0 0) (PJ x 0 0) (GR x 0 0) (GJ x 0 0)). set (W2 := grI pr pi gr gi (PR x 0 0) (PJ x 0 0) (GR x 0 0) (GJ x 0 0)).
  assert (K : forall r, 0 < r <= a -> W1 r = W1 a /\ W2 r = W2 a).
  { intros r Hr. apply (green_c 0 a (2 * x^2) _ _ _ _ _ _ _ _ r a HD (ref_diffuses x 0 0 0 a)); lra. }
  assert (E1 : W1 a = 0).
  { apply (const_lim W1 a); [auto|intros r Hr; apply K, Hr|].
    apply (lim_ext (fun r => (r^2 * gr r * PR x 0 0 r - r^2 * gi r * PJ x 0 0 r) - (r * pr r * (r^2 * GR x 0 0 r / r) - r * pi r * (r^2 * GJ x 0 0 r / r)))).
    - eapply lim_eq; [apply limit_minus; apply limit_minus; apply limit_mul; eassumption|]. ring.
    - intros r Hr. unfold W1, grR. field. lra. }
  assert (E2 : W2 a = 0).
  { apply (const_lim W2 a); [auto|intros r Hr; apply K, Hr|].
    apply (lim_ext (fun r => (r^2 * gr r * PJ x 0 0 r + r^2 * gi r * PR x 0 0 r) - (r * pr r * (r^2 * GJ x 0 0 r / r) + r * pi r * (r^2 * GR x 0 0 r / r)))).
    - eapply lim_eq; [apply limit_minus; apply limit_plus; apply limit_mul; eassumption|]. ring.
    - intros r Hr. unfold W2, grI. field. lra. }
  unfold W1, W2, grR, grI, PR, PJ, GR, GJ, uR, uI, vR, vI in E1, E2. cbv zeta in E1, E2. rewrite Rminus_0_r in E1, E2.
  destruct (sphere_imp (x * a) HX) as (N & B1 & B2).
  set (c1 := cR (x * a)) in *. set (c2 := cJ (x * a)) in *. set (s1 := sR (x * a)) in *. set (s2 := sJ (x * a)) in *. set (zr := wz1r (x * a)) in *. set (zi := wz1i (x * a)) in *.
  set (d1 := x * a * (c1 - c2) - s1) in *. set (d2 := x * a * (c1 + c2) - s2) in *.
  assert (E1' : a * (gr a * s1 - gi a * s2) - (pr a * d1 - pi a * d2) = 0) by (rewrite <- E1; unfold d1, d2; field; lra).
  assert (E2' : a * (gr a * s2 + gi a * s1) - (pr a * d2 + pi a * d1) = 0) by (rewrite <- E2; unfold d1, d2; field; lra).
  clear E1 E2. clearbody d1 d2. rewrite B1, B2 in E1', E2'.
  destruct (cancel d1 d2 (a * (zr * gr a + zi * gi a) - pr a) (a * (zr * gi a - zi * gr a) - pi a) N) as (R1 & R2).
  - rewrite <- E1'. ring.
  - rewrite <- E2'. ring.
  - split; lra.
Qed.
End Sphere.
Section Shell.
Variables (x a b : R) (pr pi gr gi : R -> R).
Hypotheses (Hx : 0 < x) (Ha : 0 < a) (Hb : a < b) (HD : radial_diffusion a b (2 * x^2) pr pi gr gi).
Lemma shell_rel : gr b = 0 -> gi b = 0 ->
  pr a = - (a * (wz2r (x * a) (x * b) * gr a + wz2i (x * a) (x * b) * gi a)) /\ pi a = - (a * (wz2r (x * a) (x * b) * gi a - wz2i (x * a) (x * b) * gr a)).
Proof.
  intros G1 G2. assert (HX : 0 < x * a) by (apply Rmult_lt_0_compat; auto). assert (HY : x * a < x * b) by (apply Rmult_lt_compat_l; auto).
  set (h := x * b) in *.
  destruct (green_c a b (2 * x^2) pr pi gr gi (PR x b h) (PJ x b h) (GR x b h) (GJ x b h) a b HD (ref_diffuses x b h a b)) as (E1 & E2); try lra.
  assert (T0 : x * (b - b) = 0) by ring.
  assert (GB : GR x b h b = 0 /\ GJ x b h b = 0).
  { unfold GR, GJ, uR, uI, vR, vI. cbv zeta. rewrite T0. unfold sR, sJ, cR, cJ. rewrite sinh_0, sin_0, cosh_0, cos_0. unfold h. split; field; lra. }
  destruct GB as (GB1 & GB2).
  unfold grR at 2 in E1. unfold grI at 2 in E2. rewrite G1, G2, GB1, GB2 in E1, E2.
  unfold grR, grI, PR, PJ, GR, GJ, uR, uI, vR, vI in E1, E2. cbv zeta in E1, E2.
  destruct (shell_imp (x * a) h HX HY) as (N & B1 & B2). replace (x * (a - b)) with (x * a - h) in E1, E2 by (unfold h; ring).
  set (t := x * a - h) in *.
  set (c1 := cR t) in *. set (c2 := cJ t) in *. set (s1 := sR t) in *. set (s2 := sJ t) in *. set (zr := wz2r (x * a) h) in *. set (zi := wz2i (x * a) h) in *.
  set (u1 := s1 + h * (c1 - c2)) in *. set (u2 := s2 + h * (c1 + c2)) in *.
  set (d1 := x * a * (c1 - c2) - 2 * (x * a) * h * s2 - u1) in *. set (d2 := x * a * (c1 + c2) + 2 * (x * a) * h * s1 - u2) in *.
  assert (E1' : a * (gr a * u1 - gi a * u2) - (pr a * d1 - pi a * d2) = 0) by (transitivity (a^2 * gr a * (u1 / a) - a^2 * gi a * (u2 / a) - (pr a * (a^2 * ((a * (x * (c1 - c2) - 2 * x * h * s2) - u1) / a^2)) - pi a * (a^2 * ((a * (x * (c1 + c2) + 2 * x * h * s1) - u2) / a^2)))); [unfold d1, d2; field; lra|rewrite E1; ring]).
  assert (E2' : a * (gr a * u2 + gi a * u1) - (pr a * d2 + pi a * d1) = 0) by (transitivity (a^2 * gr a * (u2 / a) + a^2 * gi a * (u1 / a) - (pr a * (a^2 * ((a * (x * (c1 + c2) + 2 * x * h * s1) - u2) / a^2)) + pi a * (a^2 * ((a * (x * (c1 - c2) - 2 * x * h * s2) - u1) / a^2)))); [unfold d1, d2; field; lra|rewrite E2; ring]).
  clear E1 E2. clearbody d1 d2 u1 u2. replace u1 with (- (- u1)) in E1', E2' by ring. replace u2 with (- (- u2)) in E1', E2' by ring. rewrite B1, B2 in E1', E2'.
  destruct (cancel d1 d2 (- (a * (zr * gr a + zi * gi a)) - pr a) (- (a * (zr * gi a - zi * gr a)) - pi a) N) as (R1 & R2).
  - rewrite <- E1'. ring.
  - rewrite <- E2'. ring.
  - split; lra.
Qed.
End Shell.

(** ** Existence *)
Lemma scaled lo hi beta pr pi gr gi A B : radial_diffusion lo hi beta pr pi gr gi ->
  radial_diffusion lo hi beta (fun r => A * pr r - B * pi r) (fun r => A * pi r + B * pr r) (fun r => A * gr r - B * gi r) (fun r => A * gi r + B * gr r).
Proof.
  intros H r Hr Hl. destruct (H r Hr Hl) as (A1 & A2 & A3 & A4).
  assert (S : forall c f l, derivable_pt_lim f r l -> derivable_pt_lim (fun y => c * f y) r (c * l)).
  { intros c f l D. apply (derivable_pt_lim_scal f c r l D). }
  assert (E : forall f g l, (forall y, f y = g y) -> derivable_pt_lim f r l -> derivable_pt_lim g r l).
  { intros f g l Hf D. apply is_derive_Reals. apply is_derive_Reals in D. apply (is_derive_ext f); auto. }
  split; [apply dsub; apply S; assumption|]. split; [apply dadd; apply S; assumption|]. split.
  - apply (E (fun y => A * (y^2 * gr y) - B * (y^2 * gi y))); [intros; ring|]. eapply dpl_eq; [apply dsub; apply S; eassumption|]. ring.
  - apply (E (fun y => A * (y^2 * gi y) + B * (y^2 * gr y))); [intros; ring|]. eapply dpl_eq; [apply dadd; apply S; eassumption|]. ring.
Qed.
Lemma solve g1 g2 t1 t2 : 0 < g1^2 + g2^2 -> exists A B, A * g1 - B * g2 = t1 /\ A * g2 + B * g1 = t2.
Proof. intros H. exists ((t1 * g1 + t2 * g2) / (g1^2 + g2^2)), ((t2 * g1 - t1 * g2) / (g1^2 + g2^2)). split; field; lra. Qed.
Lemma sphere_exists x a t1 t2 : 0 < x -> 0 < a -> exists pr pi gr gi, radial_diffusion 0 a (2 * x^2) pr pi gr gi /\ regular_centre pr pi gr gi /\ gr a = t1 /\ gi a = t2.
Proof.
  intros Hx Ha. assert (HX : 0 < x * a) by (apply Rmult_lt_0_compat; auto). destruct (sphere_imp (x * a) HX) as (N & _).
  assert (NG : 0 < GR x 0 0 a ^ 2 + GJ x 0 0 a ^ 2).
  { unfold GR, GJ, uR, uI, vR, vI. cbv zeta. rewrite Rminus_0_r. set (t := x * a) in *.
    match goal with |- 0 < ?g => replace g with (((t * (cR t - cJ t) - sR t)^2 + (t * (cR t + cJ t) - sJ t)^2) / a^4) by (unfold t; field; lra) end.
    apply Rdiv_lt_0_compat; [exact N|apply pow_lt; auto]. }
  destruct (solve _ _ t1 t2 NG) as (A & B & E1 & E2).
  do 4 eexists. split; [exact (scaled _ _ _ _ _ _ _ A B (ref_diffuses x 0 0 0 a))|]. split; [|split; [exact E1|exact E2]].
  assert (C : forall c1 c2 f g h, (forall r, 0 < r -> h r = c1 * f r + c2 * g r) -> continuity_pt f 0 -> continuity_pt g 0 -> f 0 = 0 -> g 0 = 0 -> limit1_in h (fun r => 0 < r) 0 0).
  { intros c1 c2 f g h H Cf Cg F0 G0. apply (lim_ext (fun r => c1 * f r + c2 * g r)); [|intros r Hr; symmetry; auto].
    eapply lim_eq; [apply limit_plus; (apply limit_mul; [apply lim_cst|apply lim_cont; assumption])|]. rewrite F0, G0. ring. }
  assert (Z : uR x 0 0 0 = 0 /\ uI x 0 0 0 = 0). { unfold uR, uI, sR, sJ, cR, cJ. cbv zeta. rewrite Rminus_0_r, Rmult_0_r, sinh_0, sin_0. split; ring. }
  destruct Z as (Z1 & Z2).
  assert (U1 : continuity_pt (uR x 0 0) 0) by (apply derivable_continuous_pt; eexists; apply uR_d).
  assert (U2 : continuity_pt (uI x 0 0) 0) by (apply derivable_continuous_pt; eexists; apply uI_d).
  assert (F : forall u v w, (forall r, derivable_pt_lim u r (v r)) -> derivable_pt_lim v 0 w -> continuity_pt (fun r => r * v r - u r) 0).
  { intros u v w D1 D2. apply derivable_continuous_pt. eexists. apply dsub; [apply dmul; [apply derivable_pt_lim_id|exact D2]|apply D1]. }
  assert (V1 := F _ _ _ (uR_d x 0 0) (vR_d x 0 0 0)). assert (V2 := F _ _ _ (uI_d x 0 0) (vI_d x 0 0 0)).
  unfold regular_centre. split; [|split; [|split]].
  - apply (C A (- B) (uR x 0 0) (uI x 0 0)); auto. intros r Hr. unfold PR, PJ. field. lra.
  - apply (C B A (uR x 0 0) (uI x 0 0)); auto. intros r Hr. unfold PR, PJ. field. lra.
  - apply (C A (- B) (fun r => r * vR x 0 0 r - uR x 0 0 r) (fun r => r * vI x 0 0 r - uI x 0 0 r)); auto; [|rewrite Z1; ring|rewrite Z2; ring].
    intros r Hr. unfold GR, GJ. field. lra.
  - apply (C B A (fun r => r * vR x 0 0 r - uR x 0 0 r) (fun r => r * vI x 0 0 r - uI x 0 0 r)); auto; [|rewrite Z1; ring|rewrite Z2; ring].
    intros r Hr. unfold GR, GJ. field. lra.
Qed.
Lemma shell_exists x a b t1 t2 : 0 < x -> 0 < a -> a < b -> exists pr pi gr gi, radial_diffusion a b (2 * x^2) pr pi gr gi /\ gr b = 0 /\ gi b = 0 /\ gr a = t1 /\ gi a = t2.
Proof.
  intros Hx Ha Hb. assert (HX : 0 < x * a) by (apply Rmult_lt_0_compat; auto). assert (HY : x * a < x * b) by (apply Rmult_lt_compat_l; auto).
  destruct (shell_imp (x * a) (x * b) HX HY) as (N & _). set (h := x * b) in *.
  assert (NG : 0 < GR x b h a ^ 2 + GJ x b h a ^ 2).
  { unfold GR, GJ, uR, uI, vR, vI. cbv zeta. replace (x * (a - b)) with (x * a - h) by (unfold h; ring). set (t := x * a - h) in *.
    match goal with |- 0 < ?g => match type of N with 0 < ?n => replace g with (n / a^4) by (field; lra) end end.
    apply Rdiv_lt_0_compat; [exact N|apply pow_lt; auto]. }
  destruct (solve _ _ t1 t2 NG) as (A & B & E1 & E2).
  assert (GB : GR x b h b = 0 /\ GJ x b h b = 0).
  { assert (T0 : x * (b - b) = 0) by ring. unfold GR, GJ, uR, uI, vR, vI. cbv zeta. rewrite T0. unfold sR, sJ, cR, cJ. rewrite sinh_0, sin_0, cosh_0, cos_0. unfold h. split; field; lra. }
  destruct GB as (G1 & G2).
  do 4 eexists. split; [exact (scaled _ _ _ _ _ _ _ A B (ref_diffuses x b h a b))|]. cbv beta. rewrite G1, G2. split; [ring|]. split; [ring|]. split; assumption.
Qed.

(** ** The whole model *)
Lemma cube_inj u v : 0 < u -> 0 < v -> u^3 = v^3 -> u = v.
Proof.
  intros Hu Hv E. assert (F : (u - v) * (u^2 + u * v + v^2) = 0) by (ring_simplify; lra).
  assert (0 < u^2) by (apply pow_lt; auto). assert (0 < u * v) by (apply Rmult_lt_0_compat; auto). assert (0 < v^2) by (apply pow_lt; auto).
  destruct (Rmult_integral _ _ F); lra.
Qed.
Lemma core G1 G2 vr vi dR k Ki c Cr Ci : 0 < G1 -> 0 < G2 -> 0 < Ki -> 0 <= c -> G1 * vr - G2 * vi = dR -> G2 * vr + G1 * vi = 0 -> c = - Ki * (k * dR) ->
  Cr = 1 / Ki - k * vr -> Ci = - (k * vi) ->
  cmul (CFin (Ki * (G1^2 + G2^2 + c * G1) / ((G1 + c)^2 + G2^2)) (Ki * (c * G2) / ((G1 + c)^2 + G2^2))) (CFin Cr Ci) = CFin 1 0.
Proof.
  intros P1 P2 P3 P4 E1 E2 E3 E4 E5. assert (0 < G1^2) by (apply pow_lt; auto). assert (0 < G2^2) by (apply pow_lt; auto). assert (0 <= c * G1) by (apply Rmult_le_pos; lra). assert (0 <= c^2) by apply pow2_ge_0.
  assert (S : 0 < G1^2 + G2^2) by lra. assert (N : 0 < (G1 + c)^2 + G2^2) by (replace ((G1 + c)^2) with (G1^2 + 2 * (c * G1) + c^2) by ring; lra).
  assert (V1 : vr = dR * G1 / (G1^2 + G2^2)).
  { apply (Rmult_eq_reg_r (G1^2 + G2^2)); [|lra]. transitivity (dR * G1); [|field; lra]. rewrite <- E1. transitivity (G1 * (G1 * vr - G2 * vi) + G2 * (G2 * vr + G1 * vi)); [ring|rewrite E2; ring]. }
  assert (V2 : vi = - (dR * G2 / (G1^2 + G2^2))).
  { apply (Rmult_eq_reg_r (G1^2 + G2^2)); [|lra]. transitivity (- (dR * G2)); [|field; lra]. rewrite <- E1. transitivity (- (G2 * (G1 * vr - G2 * vi)) + G1 * (G2 * vr + G1 * vi)); [ring|rewrite E2; ring]. }
  assert (X : k * dR = - (c / Ki)) by (rewrite E3; field; lra).
  assert (C1 : Cr = (1 + c * G1 / (G1^2 + G2^2)) / Ki).
  { rewrite E4, V1. transitivity (1 / Ki - (k * dR) * (G1 / (G1^2 + G2^2))); [field; lra|]. rewrite X. field. lra. }
  assert (C2 : Ci = - (c * G2 / (G1^2 + G2^2) / Ki)).
  { rewrite E5, V2. transitivity ((k * dR) * (G2 / (G1^2 + G2^2))); [field; lra|]. rewrite X. field. lra. }
  rewrite C1, C2, cmul_fin. apply cfin_eq; field; repeat split; lra.
Qed.
Section Whole.
Variables (m : mode) (Kd Gd K0 phi r0 rf1 rf2 Kf1 Kf2 eta1 eta2 kap a sg f : R).
Hypothesis (H : white_inputs Kd Gd K0 phi r0 rf1 rf2 Kf1 Kf2 eta1 eta2 kap a sg) (Hf : 0 < f).
Let k1 := gK Kd K0 Kf1 phi.
Let k2 := gK Kd K0 Kf2 phi.
Let g1 := gB Kd K0 Kf1 phi.
Let g2 := gB Kd K0 Kf2 phi.
Let bt := 1 - Kd / K0.
Let KE1 := Kd / (k1 * g1).
Let KE2 := Kd / (k2 * g2).
Let b := a / Rpower sg (1/3).
Let Dd := k2 * (3 * k1 + 4 * Gd) + 4 * Gd * (k1 - k2) * sg.
Let Ki := wKinf Kd Gd K0 phi Kf1 Kf2 sg.
Let x1 := wx kap eta1 KE1 f.
Let x2 := wx kap eta2 KE2 f.
Let G1 := wg1 Kd K0 phi Kf1 Kf2 eta1 eta2 kap a sg f.
Let G2 := wg2 Kd K0 phi Kf1 Kf2 eta1 eta2 kap a sg f.
Let om := 2 * PI * f.
Let e1 := (3 * k2 + 4 * Gd) / Dd.
Let e2 := (3 * k1 + 4 * Gd) / Dd.
Let dR := bt * (1 / g1) * e1 - bt * (1 / g2) * e2.
Let dQ := bt * (1 / g2) / k2 - bt * (1 / g1) / k1.
Let T1 := eta1 * a / kap.
Let T2 := eta2 * a / kap.
Lemma wfacts : 0 < g1 /\ 0 < g2 /\ Kd < k1 <= K0 /\ Kd < k2 <= K0 /\ 0 < bt /\ k1 = Kd + bt^2 / g1 /\ k2 = Kd + bt^2 / g2 /\ 0 < KE1 /\ 0 < KE2 /\
  a < b /\ b^3 = a^3 / sg /\ 0 < Dd /\ 0 < Ki /\ 0 < 3 * k1 + 4 * Gd - 3 * (k1 - k2) * sg /\ 0 < G1 /\ 0 < G2 /\ 0 < om /\ 0 < x1 /\ 0 < x2 /\
  0 < Kd < K0 /\ 0 < kap /\ 0 < eta1 /\ 0 < eta2 /\ 0 < a /\ 0 < sg < 1 /\ 0 <= Gd /\ 0 <= wc Kd Gd K0 phi Kf1 Kf2 a sg.
Proof.
  destruct H as (H0 & H1 & H2 & H3 & H4 & H5 & H6 & H7 & H8 & H9 & H10 & H11).
  destruct (w_facts Kd K0 phi Kf1 Kf2) as (A1 & A2 & A3 & A4 & A5 & A6 & A7 & A8 & A9); auto.
  destruct (w_b a sg) as (B1 & B2); auto. destruct (w_D Kd Gd K0 phi Kf1 Kf2 sg) as (D1 & D2 & D3 & D4); auto.
  destruct (wc_pos Kd Gd K0 phi Kf1 Kf2 a sg) as (C1 & C2); auto. destruct (wg_pos Kd K0 phi Kf1 Kf2 eta1 eta2 kap a sg) with (f := f) as (E1 & E2); auto.
  assert (P := PI_RGT_0). assert (0 < om) by (unfold om; apply Rmult_lt_0_compat; lra).
  assert (0 < x1) by (apply wx_pos; auto). assert (0 < x2) by (apply wx_pos; auto).
  do 2 (split; [assumption|]). do 24 (split; [assumption|]). assumption.
Qed.
Lemma wbeta eta KE : 0 < eta -> 0 < KE -> 0 < kap -> 2 * wx kap eta KE f ^2 = om * eta / (kap * KE).
Proof.
  intros A B C. assert (P := PI_RGT_0). unfold wx. fold om. rewrite pow2_sqrt; [field; lra|].
  assert (0 < om) by (unfold om; apply Rmult_lt_0_compat; lra). apply Rlt_le. apply Rmult_lt_0_compat; [|lra]. apply Rdiv_lt_0_compat; apply Rmult_lt_0_compat; auto.
Qed.
Lemma resp K M : 0 < K -> K = Kd + bt^2 * M -> content_response Kd bt M (M * Kd / K) (bt * M / K).
Proof.
  intros HK E z e p Ep Ee. rewrite <- E in Ee. assert (X : e = bt * M / K * z) by (apply (Rmult_eq_reg_l K); [|lra]; transitivity (bt * M * z); [lra|field; lra]).
  split; [|exact X]. rewrite Ep, X. replace Kd with (K - bt^2 * M) by lra. field. lra.
Qed.
Lemma resp_inv K M N Q : 0 < K -> K = Kd + bt^2 * M -> content_response Kd bt M N Q -> N = M * Kd / K /\ Q = bt * M / K.
Proof.
  intros HK E HC. destruct (HC 1 (bt * M / K) (M * Kd / K)) as (A & B).
  - replace Kd with (K - bt^2 * M) by lra. field. lra.
  - rewrite <- E. field. lra.
  - split; lra.
Qed.
Lemma gmod Kf M : 0 < gB Kd K0 Kf phi -> 0 < Kf -> 1 / M = phi / Kf + (bt - phi) / K0 -> M = 1 / gB Kd K0 Kf phi.
Proof.
  intros A B E. destruct H as (H0 & _). assert (X : gB Kd K0 Kf phi = 1 / M) by (rewrite E; unfold gB, bt; field; lra).
  assert (M <> 0). { intros ->. unfold Rdiv in X. rewrite Rinv_0 in X. lra. } rewrite X. field. auto.
Qed.
Lemma Wv vr vi z1r z1i z2r z2i pr1 pi1 pr2 pi2 h1r h1i h2r h2i R1 R2 :
  G1 = om * (T1 * z1i + T2 * z2i) -> G2 = om * (T1 * z1r + T2 * z2r) ->
  0 < kap -> 0 < eta1 -> 0 < eta2 ->
  - om * vi = - (kap / eta1) * h1r -> om * vr = - (kap / eta1) * h1i -> - om * vi = - (kap / eta2) * h2r -> om * vr = - (kap / eta2) * h2i ->
  pr1 = a * (z1r * h1r + z1i * h1i) -> pi1 = a * (z1r * h1i - z1i * h1r) -> pr2 = - (a * (z2r * h2r + z2i * h2i)) -> pi2 = - (a * (z2r * h2i - z2i * h2r)) ->
  R1 + pr1 = R2 + pr2 /\ pi1 = pi2 <-> G1 * vr - G2 * vi = R1 - R2 /\ G2 * vr + G1 * vi = 0.
Proof.
  intros -> -> P1 P2 P3 F1 F2 F3 F4 -> -> -> ->.
  assert (Y1 : h1r = eta1 / kap * (om * vi)) by (replace (om * vi) with (kap / eta1 * h1r) by lra; field; lra).
  assert (Y2 : h1i = - (eta1 / kap * (om * vr))) by (replace (om * vr) with (- (kap / eta1) * h1i) by lra; field; lra).
  assert (Y3 : h2r = eta2 / kap * (om * vi)) by (replace (om * vi) with (kap / eta2 * h2r) by lra; field; lra).
  assert (Y4 : h2i = - (eta2 / kap * (om * vr))) by (replace (om * vr) with (- (kap / eta2) * h2i) by lra; field; lra).
  rewrite Y1, Y2, Y3, Y4. unfold T1, T2.
  set (q1 := eta1 * a / kap). set (q2 := eta2 * a / kap).
  assert (Q1 : forall y, a * (eta1 / kap * y) = q1 * y) by (intros; unfold q1; field; lra).
  assert (Q2 : forall y, a * (eta2 / kap * y) = q2 * y) by (intros; unfold q2; field; lra).
  replace (a * (z1r * (eta1 / kap * (om * vi)) + z1i * - (eta1 / kap * (om * vr)))) with (q1 * (z1r * (om * vi) - z1i * (om * vr))) by (unfold q1; field; lra).
  replace (a * (z1r * - (eta1 / kap * (om * vr)) - z1i * (eta1 / kap * (om * vi)))) with (- (q1 * (z1r * (om * vr) + z1i * (om * vi)))) by (unfold q1; field; lra).
  replace (a * (z2r * (eta2 / kap * (om * vi)) + z2i * - (eta2 / kap * (om * vr)))) with (q2 * (z2r * (om * vi) - z2i * (om * vr))) by (unfold q2; field; lra).
  replace (a * (z2r * - (eta2 / kap * (om * vr)) - z2i * (eta2 / kap * (om * vi)))) with (- (q2 * (z2r * (om * vr) + z2i * (om * vi)))) by (unfold q2; field; lra).
  clear Q1 Q2. split; intros (A & B); split; lra.
Qed.
Lemma eeq : (k1 + 4/3 * Gd) * e1 = (k2 + 4/3 * Gd) * e2 /\ sg * (k1 * e1) + (1 - sg) * (k2 * e2) = 1 /\ sg * e1 + (1 - sg) * e2 = 1 / Ki.
Proof.
  destruct wfacts as (_ & _ & L1 & L2 & _ & _ & _ & _ & _ & _ & _ & D & KP & D2 & _ & _ & _ & _ & _ & _ & _ & _ & _ & _ & S & GG & _).
  unfold e1, e2. split; [field; lra|]. split.
  - unfold Dd in *. field. lra.
  - unfold Ki, wKinf. fold k1 k2. fold Dd. field. lra.
Qed.
Lemma eeq_inv y1 y2 : (k1 + 4/3 * Gd) * y1 = (k2 + 4/3 * Gd) * y2 -> sg * (k1 * y1) + (1 - sg) * (k2 * y2) = 1 -> y1 = e1 /\ y2 = e2.
Proof.
  intros A B. destruct wfacts as (_ & _ & L1 & L2 & _ & _ & _ & _ & _ & _ & _ & D & _ & _ & _ & _ & _ & _ & _ & HKd & _ & _ & _ & _ & S & GG & _).
  assert (P1 : 0 < 3 * k1 + 4 * Gd) by lra. assert (P2 : 0 < 3 * k2 + 4 * Gd) by lra.
  assert (A' : (3 * k1 + 4 * Gd) * y1 = (3 * k2 + 4 * Gd) * y2) by lra.
  assert (X : Dd * y1 = 3 * k2 + 4 * Gd).
  { transitivity ((3 * k2 + 4 * Gd) * (sg * (k1 * y1) + (1 - sg) * (k2 * y2))); [|rewrite B; ring].
    transitivity ((3 * k2 + 4 * Gd) * (sg * (k1 * y1)) + (1 - sg) * k2 * ((3 * k2 + 4 * Gd) * y2)); [rewrite <- A'; unfold Dd; ring|ring]. }
  assert (Y : Dd * y2 = 3 * k1 + 4 * Gd).
  { transitivity ((3 * k1 + 4 * Gd) * (sg * (k1 * y1) + (1 - sg) * (k2 * y2))); [|rewrite B; ring].
    transitivity (sg * k1 * ((3 * k1 + 4 * Gd) * y1) + (3 * k1 + 4 * Gd) * ((1 - sg) * (k2 * y2))); [rewrite A'; unfold Dd; ring|ring]. }
  unfold e1, e2. rewrite <- X, <- Y. split; field; lra.
Qed.
Lemma wc_form : wc Kd Gd K0 phi Kf1 Kf2 a sg = - Ki * (3 * a^2 * dQ / b^3 * dR).
Proof.
  destruct wfacts as (A1 & A2 & L1 & L2 & B & E1 & E2 & _ & _ & Hb & _ & D & _ & _ & _ & _ & _ & _ & _ & HKd & _ & _ & _ & Ha & _).
  unfold wc, wnum. fold k1 k2 g1 g2. fold bt. fold Dd. fold b. fold Ki.
  replace ((k1 - Kd) / bt) with (bt * (1 / g1)) by (rewrite E1; field; lra). replace ((k2 - Kd) / bt) with (bt * (1 / g2)) by (rewrite E2; field; lra).
  unfold dQ, dR, e1, e2. field. repeat split; lra.
Qed.
Lemma white_sound Cr Ci : white_compliance Kd Gd K0 phi Kf1 Kf2 eta1 eta2 kap a sg om Cr Ci ->
  cmul (CFin (wKR Kd Gd K0 phi Kf1 Kf2 eta1 eta2 kap a sg f) (wKI Kd Gd K0 phi Kf1 Kf2 eta1 eta2 kap a sg f)) (CFin Cr Ci) = CFin 1 0.
Proof.
  destruct wfacts as (A1 & A2 & L1 & L2 & B & E1 & E2 & P1 & P2 & Hb & Eb & D & KP & _ & PG1 & PG2 & Ho & Px1 & Px2 & HKd & Hk & He1 & He2 & Ha & Hs & HG & Wc).
  intros (b' & bt' & M1 & M2 & N1 & N2 & Q1 & Q2 & y1 & y2 & vr & vi & pr1 & pi1 & gr1 & gi1 & pr2 & pi2 & gr2 & gi2 & HH). cbv zeta in HH.
  destruct HH as (B0 & B3 & Ebt & EM1 & EM2 & CR1 & CR2 & Y1 & Y2 & D1 & RC & D2 & NF1 & NF2 & I1 & I2 & F1 & F2 & F3 & F4 & -> & ->).
  assert (b' = b) by (apply cube_inj; [auto|lra|rewrite Eb, B3; field; lra]). subst b'. change (1 - Kd / K0) with bt in Ebt. subst bt'.
  destruct H as (_ & HF1 & HF2 & _).
  apply gmod in EM1; [|exact A1|lra]. apply gmod in EM2; [|exact A2|lra]. fold g1 in EM1. fold g2 in EM2. subst M1 M2.
  replace (Kd + bt^2 * (1 / g1)) with k1 in * by (rewrite E1 at 1; field; lra). replace (Kd + bt^2 * (1 / g2)) with k2 in * by (rewrite E2 at 1; field; lra).
  apply (resp_inv k1) in CR1; [|lra|rewrite E1 at 1; field; lra]. apply (resp_inv k2) in CR2; [|lra|rewrite E2 at 1; field; lra].
  destruct CR1 as (-> & ->). destruct CR2 as (-> & ->).
  destruct (eeq_inv y1 y2 Y1 Y2) as (-> & ->). destruct eeq as (_ & _ & EC).
  replace (1 / g1 * Kd / k1) with KE1 in D1 by (unfold KE1; field; lra). replace (1 / g2 * Kd / k2) with KE2 in D2 by (unfold KE2; field; lra).
  rewrite <- wbeta in D1, D2 by auto. fold x1 in D1. fold x2 in D2.
  destruct (sphere_rel x1 a pr1 pi1 gr1 gi1 Px1 Ha D1 RC) as (R1 & R2). destruct (shell_rel x2 a b pr2 pi2 gr2 gi2 Px2 Ha Hb D2 NF1 NF2) as (R3 & R4).
  assert (Z := Wv vr vi (wz1r (x1 * a)) (wz1i (x1 * a)) (wz2r (x2 * a) (x2 * b)) (wz2i (x2 * a) (x2 * b)) _ _ _ _ _ _ _ _ (bt * (1 / g1) * e1) (bt * (1 / g2) * e2) eq_refl eq_refl Hk He1 He2 F1 F2 F3 F4 R1 R2 R3 R4).
  destruct (proj1 Z (conj I1 I2)) as (V1 & V2).
  apply (core G1 G2 vr vi dR (3 * a^2 * dQ / b^3) Ki (wc Kd Gd K0 phi Kf1 Kf2 a sg)); auto.
  - apply wc_form.
  - rewrite EC. unfold dQ. unfold Rdiv. ring.
  - unfold dQ. unfold Rdiv. ring.
Qed.
Lemma white_exists : exists Cr Ci, white_compliance Kd Gd K0 phi Kf1 Kf2 eta1 eta2 kap a sg om Cr Ci.
Proof.
  destruct wfacts as (A1 & A2 & L1 & L2 & B & E1 & E2 & P1 & P2 & Hb & Eb & D & KP & _ & PG1 & PG2 & Ho & Px1 & Px2 & HKd & Hk & He1 & He2 & Ha & Hs & HG & Wc).
  assert (SP : 0 < G1^2 + G2^2) by (assert (0 < G1^2) by (apply pow_lt; auto); assert (0 < G2^2) by (apply pow_lt; auto); lra).
  destruct (solve G1 G2 dR 0 SP) as (vr & vi & S1 & S2).
  destruct (sphere_exists x1 a (eta1 / kap * (om * vi)) (- (eta1 / kap * (om * vr))) Px1 Ha) as (pr1 & pi1 & gr1 & gi1 & D1 & RC & T11 & T12).
  destruct (shell_exists x2 a b (eta2 / kap * (om * vi)) (- (eta2 / kap * (om * vr))) Px2 Ha Hb) as (pr2 & pi2 & gr2 & gi2 & D2 & NF1 & NF2 & T21 & T22).
  destruct (sphere_rel x1 a pr1 pi1 gr1 gi1 Px1 Ha D1 RC) as (R1 & R2). destruct (shell_rel x2 a b pr2 pi2 gr2 gi2 Px2 Ha Hb D2 NF1 NF2) as (R3 & R4).
  assert (F1 : - om * vi = - (kap / eta1) * gr1 a) by (rewrite T11; field; lra). assert (F2 : om * vr = - (kap / eta1) * gi1 a) by (rewrite T12; field; lra).
  assert (F3 : - om * vi = - (kap / eta2) * gr2 a) by (rewrite T21; field; lra). assert (F4 : om * vr = - (kap / eta2) * gi2 a) by (rewrite T22; field; lra).
  assert (Z := Wv vr vi (wz1r (x1 * a)) (wz1i (x1 * a)) (wz2r (x2 * a) (x2 * b)) (wz2i (x2 * a) (x2 * b)) _ _ _ _ _ _ _ _ (bt * (1 / g1) * e1) (bt * (1 / g2) * e2) eq_refl eq_refl Hk He1 He2 F1 F2 F3 F4 R1 R2 R3 R4).
  destruct (proj2 Z) as (I1 & I2); [fold dR; split; lra|].
  assert (W1 : Kd + bt^2 * (1 / g1) = k1) by (rewrite E1; field; lra). assert (W2 : Kd + bt^2 * (1 / g2) = k2) by (rewrite E2; field; lra).
  destruct eeq as (Y1 & Y2 & _). destruct H as (H0 & HF1 & HF2 & _).
  do 2 eexists. exists b, bt, (1 / g1), (1 / g2), KE1, KE2, (bt * (1 / g1) / k1), (bt * (1 / g2) / k2), e1, e2, vr, vi, pr1, pi1, gr1, gi1, pr2, pi2, gr2, gi2. cbv zeta.
  rewrite W1, W2. split; [lra|]. split; [rewrite Eb; field; lra|]. split; [reflexivity|].
  assert (MM : forall Kf, 0 < Kf -> 0 < gB Kd K0 Kf phi -> 1 / (1 / gB Kd K0 Kf phi) = phi / Kf + (bt - phi) / K0).
  { intros Kf HKf HB. transitivity (gB Kd K0 Kf phi); [field; lra|]. unfold gB, bt. field. lra. }
  split; [apply MM; [lra|exact A1]|]. split; [apply MM; [lra|exact A2]|].
  split; [replace KE1 with (1 / g1 * Kd / k1) by (unfold KE1; field; lra); apply resp; [lra|symmetry; exact W1]|].
  split; [replace KE2 with (1 / g2 * Kd / k2) by (unfold KE2; field; lra); apply resp; [lra|symmetry; exact W2]|].
  split; [exact Y1|]. split; [exact Y2|]. rewrite <- !wbeta by auto. fold x1 x2.
  split; [exact D1|]. split; [exact RC|]. split; [exact D2|]. split; [exact NF1|]. split; [exact NF2|]. split; [exact I1|]. split; [exact I2|].
  split; [exact F1|]. split; [exact F2|]. split; [exact F3|]. split; [exact F4|]. split; reflexivity.
Qed.
Lemma white_diffusion : exists V aw KR KI,
  Fluid_White_Dutta_Ode m (Fin Kd) (Fin Gd) (Fin K0) (Fin phi) (Fin r0) (Fin rf1) (Fin rf2) (Fin Kf1) (Fin Kf2)
    (Fin eta1) (Fin eta2) (Fin kap) (Fin a) (Fin sg) (Fin f) = Ret (Fin V, Fin aw, CFin KR KI) /\
  forall Cr Ci, white_compliance Kd Gd K0 phi Kf1 Kf2 eta1 eta2 kap a sg om Cr Ci <-> cmul (CFin KR KI) (CFin Cr Ci) = CFin 1 0.
Proof.
  destruct (White_two m Kd Gd K0 phi r0 rf1 rf2 Kf1 Kf2 eta1 eta2 kap a sg) with (f := f) as (B1 & _); try (unfold white_inputs in H; tauto).
  do 4 eexists. split; [exact B1|]. intros Cr Ci. split; [apply white_sound|]. intros E.
  destruct white_exists as (Cr' & Ci' & W). assert (E' := white_sound _ _ W).
  set (KR := wKR _ _ _ _ _ _ _ _ _ _ _ _) in *. set (KI := wKI _ _ _ _ _ _ _ _ _ _ _ _) in *. clearbody KR KI.
  rewrite cmul_fin in E, E'. apply cfin_inv in E, E'. destruct E as (X1 & X2). destruct E' as (X3 & X4).
  assert (N : 0 < KR^2 + KI^2).
  { assert (0 <= KR^2) by apply pow2_ge_0. assert (0 <= KI^2) by apply pow2_ge_0. destruct (Req_dec (KR^2 + KI^2) 0) as [Z|Z]; [|lra].
    apply sumsq_0 in Z. destruct Z as (-> & ->). lra. }
  destruct (cancel KR KI (Cr - Cr') (Ci - Ci') N) as (Z1 & Z2); [lra|lra|]. replace Cr with Cr' by lra. replace Ci with Ci' by lra. exact W.
Qed.
End Whole.
