(** * Lemmas about BW.py: water, brine, oil. *)
From Coq Require Import Lra.
From Verif Require Import Fl M_Fluid M_BW Spec Spec5 RealLemmas.
Open Scope R_scope.
Local Ltac fq := first [lra | field].

Lemma v_water_fin T P : BW_v_water (Fin T) (Fin P) = Ret (Fin (water_velocity T P)).
Proof.
  unfold BW_v_water. cbn [flat_map map seq nth BW_w app fold_left]. repeat fl1. reteq. unfold water_velocity. lra.
Qed.
Lemma water_fin T P : BW_rho_K_water (Fin T) (Fin P) = Ret (Fin (water_density T P), Fin (water_density T P * water_velocity T P ^ 2 / 1000000)).
Proof.
  unfold BW_rho_K_water. repeat fl1. rewrite v_water_fin. repeat fl1. 
  assert (E : 1 + 1 / 1000000 * (-80 * T - 33 / 10 * T ^ 2 + 175 / 100000 * T ^ 3 + 489 * P - 2 * T * P + 16 / 1000 * P * T ^ 2 -
      13 / 1000000 * T ^ 3 * P - 333 / 1000 * P ^ 2 - 2 / 1000 * T * P ^ 2) = water_density T P) by (unfold water_density; fq).
  rewrite E. reteq. fq.
Qed.
Lemma pow15 m S : 0 <= S -> fpow m (Fin S) (Fin (3/2)) = Fin (S * sqrt S).
Proof.
  intros H. destruct (Req_dec S 0) as [-> | N].
  - rewrite fpow_zero by lra. rewrite sqrt_0. apply fin_eq. ring.
  - rewrite fpow_fin by lra. apply fin_eq. replace (3/2) with (1 + /2) by fq. rewrite Rpower_plus, Rpower_1, Rpower_sqrt by lra. reflexivity.
Qed.
Lemma v_brine_fin m T P S : 0 <= S -> BW_v_brine m (Fin T) (Fin P) (Fin S) = Ret (Fin (brine_velocity T P S)).
Proof.
  intros H. unfold BW_v_brine. rewrite v_water_fin. repeat fl1. rewrite pow15 by auto. repeat fl1. reteq. unfold brine_velocity. fq.
Qed.
Lemma brine_fin m T P S : 0 <= S ->
  BW_rho_K_brine m (Fin T) (Fin P) (Fin S) = Ret (Fin (brine_density T P S), Fin (brine_density T P S * brine_velocity T P S ^ 2 / 1000000)).
Proof.
  intros H. unfold BW_rho_K_brine. rewrite water_fin. repeat fl1. cbv beta iota. repeat fl1. rewrite v_brine_fin by auto. repeat fl1.
  unfold brine_density. reteq; fq.
Qed.

(** Bounds on the calibrated range. *)
Section Range.
Variables (T P : R).
Hypotheses (HT : 0 <= T <= 100) (HP : 0 <= P <= 100).
Lemma mono_bnd i j : 0 <= T^i * P^j <= 100^i * 100^j.
Proof.
  assert (0 <= T^i) by (apply pow_le; lra). assert (0 <= P^j) by (apply pow_le; lra).
  assert (T^i <= 100^i) by (apply pow_incr; lra). assert (P^j <= 100^j) by (apply pow_incr; lra).
  split; [apply Rmult_le_pos; auto|apply Rmult_le_compat; auto].
Qed.
Lemma water_density_bnd : 0.9 < water_density T P < 1.1.
Proof.
  unfold water_density.
  assert (M10 := mono_bnd 1 0). assert (M20 := mono_bnd 2 0). assert (M30 := mono_bnd 3 0). assert (M01 := mono_bnd 0 1). assert (M11 := mono_bnd 1 1).
  assert (M21 := mono_bnd 2 1). assert (M31 := mono_bnd 3 1). assert (M02 := mono_bnd 0 2). assert (M12 := mono_bnd 1 2).
  cbn [pow] in *. rewrite ?Rmult_1_r, ?Rmult_1_l in *. split; lra.
Qed.
Lemma water_velocity_bnd : 700 < water_velocity T P.
Proof.
  unfold water_velocity.
  assert (A : 0 <= T * (4.871 - 0.04783 * T)) by nra.
  assert (B : 0 <= P * (1.524 - 0.0111 * T)) by nra.
  assert (M30 := mono_bnd 3 0). assert (M40 := mono_bnd 4 0).
  assert (M21 := mono_bnd 2 1). assert (M31 := mono_bnd 3 1). assert (M41 := mono_bnd 4 1). 
  assert (M02 := mono_bnd 0 2). assert (M12 := mono_bnd 1 2). assert (M22 := mono_bnd 2 2). assert (M32 := mono_bnd 3 2). assert (M42 := mono_bnd 4 2).
  assert (M03 := mono_bnd 0 3). assert (M13 := mono_bnd 1 3). assert (M23 := mono_bnd 2 3). assert (M33 := mono_bnd 3 3). assert (M43 := mono_bnd 4 3).
  cbn [pow] in *. rewrite ?Rmult_1_r, ?Rmult_1_l in *. lra.
Qed.
Lemma salt_density S : 0 <= S <= 0.3 -> 
  0.3 < 0.668 + 0.44 * S + 1e-6 * (300 * P - 2400 * P * S + T * (80 + 3 * T - 3300 * S - 13 * P + 47 * P * S)) < 1.1.
Proof.
  intros HS. assert (0 <= P * S <= 30) by nra. assert (0 <= T * P <= 10000) by nra. assert (0 <= T * S <= 30) by nra. assert (0 <= T * T <= 10000) by nra.
  assert (0 <= T * (P * S) <= 3000) by nra.
  split; lra.
Qed.
Lemma salt_velocity S : 0 <= S <= 0.3 ->
  0 <= S * (1170 - 9.6 * T + 0.055 * T^2 - 8.5e-5 * T^3 + 2.6 * P - 0.0029 * T * P - 0.0476 * P^2) + S * sqrt S * (780 - 10 * P + 0.16 * P^2) - 820 * S^2 /\
  (0 < S -> 0 < S * (1170 - 9.6 * T + 0.055 * T^2 - 8.5e-5 * T^3 + 2.6 * P - 0.0029 * T * P - 0.0476 * P^2) + S * sqrt S * (780 - 10 * P + 0.16 * P^2) - 820 * S^2).
Proof.
  intros HS. set (s1 := 1170 - 9.6 * T + 0.055 * T^2 - 8.5e-5 * T^3 + 2.6 * P - 0.0029 * T * P - 0.0476 * P^2).
  set (s15 := 780 - 10 * P + 0.16 * P^2).
  assert (A : 300 < s1).
  { unfold s1. assert (0 <= (T - 87)^2) by apply pow2_ge_0. assert (M30 := mono_bnd 3 0). assert (M11 := mono_bnd 1 1). cbn [pow] in *. rewrite ?Rmult_1_r, ?Rmult_1_l in *.
    assert (0 <= P * (100 - P)) by nra. nra. }
  assert (B : 0 < s15). { unfold s15. assert (0 <= (P - 31.25)^2) by apply pow2_ge_0. nra. }
  assert (C : 0 <= sqrt S) by apply sqrt_pos.
  assert (E : S * s1 + S * sqrt S * s15 - 820 * S^2 = S * (s1 + sqrt S * s15 - 820 * S)) by ring.
  assert (F : 0 < s1 + sqrt S * s15 - 820 * S) by nra.
  rewrite E. split; [apply Rmult_le_pos; lra | intros; apply Rmult_lt_0_compat; lra].
Qed.
End Range.
Lemma water_density_P T P P' : 0 <= T <= 100 -> 0 <= P -> P < P' -> P' <= 100 -> water_density T P < water_density T P'.
Proof.
  intros HT HP L HP'. unfold water_density.
  assert (X : 0 < (P' - P) * (489 - 2 * T + 0.016 * T^2 - 1.3e-5 * T^3 - (0.333 + 0.002 * T) * (P + P'))).
  { apply Rmult_lt_0_compat; [lra|]. assert (0 <= T^2) by apply pow2_ge_0. assert (T^3 <= 100 * T^2) by nra. assert (T * (P + P') <= 20000) by nra. nra. }
  lra.
Qed.
Lemma water_density_T T T' : 0 <= T -> T < T' -> T' <= 100 -> water_density T' 0 < water_density T 0.
Proof.
  intros HT L HT'. unfold water_density.
  assert (X : 0 < (T' - T) * (80 + 3.3 * (T + T') - 0.00175 * (T^2 + T * T' + T'^2))).
  { apply Rmult_lt_0_compat; [lra|]. nra. }
  lra.
Qed.

(** Oil *)
Lemma fpow_half m x : 0 <= x -> fpow m (Fin x) (Fin (1/2)) = Fin (sqrt x).
Proof.
  intros H. destruct (Req_dec x 0) as [-> | N].
  - rewrite fpow_zero by lra. rewrite sqrt_0. reflexivity.
  - rewrite fpow_fin by lra. apply fin_eq. replace (1/2) with (/2) by fq. rewrite Rpower_sqrt by lra. reflexivity.
Qed.
Lemma over_nonneg d : 0 < d <= 1.08 -> 0 <= 1.08 / d - 1.
Proof. intros. assert (1 <= 1.08 / d) by (apply le_div_iff; lra). lra. Qed.
Lemma oil_v_fin m d T P : 0 < d <= 1.08 ->
  fadd (fadd (fsub (fmul (Fin 2096) (fpow m (fdiv m (Fin d) (fsub (Fin (26/10)) (Fin d))) (Fin (1/2)))) (fmul (Fin (37/10)) (Fin T))) (fmul (Fin (464/100)) (Fin P)))
    (fmul (fmul (fmul (Fin (115/10000)) (fsub (fmul (Fin (412/100)) (fpow m (fsub (fdiv m (Fin (108/100)) (Fin d)) (Fin 1)) (Fin (1/2)))) (Fin 1))) (Fin T)) (Fin P))
  = Fin (oil_velocity d T P).
Proof.
  intros H. assert (X := over_nonneg d H). rewrite fsub_fin. rewrite !fdiv_fin by lra. rewrite fsub_fin.
  assert (0 <= d / (26/10 - d)) by (apply Rlt_le, Rdiv_lt_0_compat; lra).
  rewrite !fpow_half by assumption. repeat fl1. reflexivity.
Qed.
Lemma oil_B_pos T : 0.972 < 0.972 + 3.81e-4 * Rpower (T + 17.78) 1.175.
Proof. assert (0 < Rpower (T + 17.78) 1.175) by apply exp_pos. lra. Qed.
Lemma oil_fin m P T d : 0 < d <= 1.08 -> -17.78 < T ->
  BW_rho_K_oil m (Fin P) (Fin T) (Fin d) = Ret (Fin (oil_density d T P), Fin (oil_density d T P * oil_velocity d T P ^ 2 / 1000000)).
Proof.
  intros H HT. unfold BW_rho_K_oil. rewrite oil_v_fin by auto. assert (B := oil_B_pos T).
  assert (PP : 0 < T + 1778/100) by lra.
  repeat (first [fl1 | rewrite fpow_fin by assumption]; cbv beta zeta).
  assert (E : oil_density d T P = (d + (277 / 100000 * P - 171 / 100 * (1 / 10000000) * P ^ 3) * (d - 115 / 100) ^ 2 + 349 / 100 * (1 / 10000) * P)
     / (972 / 1000 + 381 / 100 * (1 / 10000) * Rpower (T + 1778 / 100) (1175 / 1000))).
  { unfold oil_density. f_equal; [fq|]. change (Rpower (T + 1778 / 100) (1175 / 1000)) with (Rpower (T + 17.78) 1.175). fq. }
  assert (B' : 0 < Rpower (T + 1778/100) (1175/1000)) by apply exp_pos. rewrite fdiv_fin by lra. rewrite <- E. repeat (first [fl1 | rewrite fdiv_fin by lra]; cbv beta zeta). reflexivity.
Qed.
Lemma Rpower_lt_l a b c : 0 < a -> a < b -> 0 < c -> Rpower a c < Rpower b c.
Proof. intros. unfold Rpower. apply exp_increasing. apply Rmult_lt_compat_l; auto. apply ln_increasing; auto. Qed.
Lemma oil_num_pos d P : 0 < d -> 0 <= P <= 70 -> 0 < d + (0.00277 * P - 1.71e-7 * P^3) * (d - 1.15)^2 + 3.49e-4 * P.
Proof.
  intros Hd HP. assert (0 <= (d - 1.15)^2) by apply pow2_ge_0.
  assert (0 <= 0.00277 * P - 1.71e-7 * P^3). { replace (0.00277 * P - 1.71e-7 * P^3) with (P * (0.00277 - 1.71e-7 * P^2)) by fq. apply Rmult_le_pos; [lra|]. nra. }
  nra.
Qed.
Lemma oil_density_pos d T P : 0 < d -> 0 <= P <= 70 -> 0 < oil_density d T P.
Proof. intros. unfold oil_density. assert (B := oil_B_pos T). apply Rdiv_lt_0_compat; [apply oil_num_pos; auto|lra]. Qed.
Lemma oil_density_T d T T' P : 0 < d -> 0 <= P <= 70 -> -17.78 < T -> T < T' -> oil_density d T' P < oil_density d T P.
Proof.
  intros Hd HP HT L. unfold oil_density. assert (N := oil_num_pos d P Hd HP). assert (B := oil_B_pos T).
  assert (R := Rpower_lt_l (T + 17.78) (T' + 17.78) 1.175 ltac:(lra) ltac:(lra) ltac:(lra)).
  unfold Rdiv. apply Rmult_lt_compat_l; [exact N|]. apply Rinv_lt_contravar; [|lra]. apply Rmult_lt_0_compat; lra.
Qed.
Lemma oil_density_P d T P P' : 0 < d -> 0 <= P -> P < P' -> P' <= 70 -> oil_density d T P < oil_density d T P'.
Proof.
  intros Hd HP L HP'. unfold oil_density. assert (B := oil_B_pos T). apply Rmult_lt_compat_r; [apply Rinv_0_lt_compat; lra|].
  assert (0 <= (d - 1.15)^2) by apply pow2_ge_0.
  assert (X : 0 <= 0.00277 * P' - 1.71e-7 * P'^3 - (0.00277 * P - 1.71e-7 * P^3)).
  { replace (0.00277 * P' - 1.71e-7 * P'^3 - (0.00277 * P - 1.71e-7 * P^3)) with ((P' - P) * (0.00277 - 1.71e-7 * (P'^2 + P' * P + P^2))) by fq.
    apply Rmult_le_pos; [lra|]. nra. }
  nra.
Qed.

(** Live oil *)
Lemma B_gt d G Rg T : 0.972 < oil_volume_factor d G Rg T.
Proof. unfold oil_volume_factor. assert (0 < Rpower (2.4 * Rg * sqrt (G / d) + T + 17.8) 1.175) by apply exp_pos. lra. Qed.
Lemma pseudo_bnd d G Rg T : 0 < d <= 1.04 -> 0 <= Rg -> 0 < pseudo_density d G Rg T <= 1.08.
Proof.
  intros Hd HR. assert (B := B_gt d G Rg T). unfold pseudo_density. assert (0 < (1 + 0.001 * Rg) * oil_volume_factor d G Rg T) by (apply Rmult_lt_0_compat; lra).
  split; [apply Rdiv_lt_0_compat; lra|]. apply div_le_iff; [lra|]. nra.
Qed.
Lemma go_fin m P T d G Rg : 0 < d <= 1.04 -> 0 < G -> 0 <= Rg -> -17.8 < T ->
  BW_rho_K_go m (Fin P) (Fin T) (Fin d) (Fin G) (Some (Fin Rg)) =
  Ret (Fin (live_density d G Rg T), Fin (live_density d G Rg T * oil_velocity (pseudo_density d G Rg T) T P ^ 2 / 1000000)).
Proof.
  intros Hd HG HR HT. unfold BW_rho_K_go. rewrite bind_fin. assert (B := B_gt d G Rg T). assert (Q := pseudo_bnd d G Rg T Hd HR).
  rewrite fdiv_fin by lra. assert (0 <= G / d) by (apply Rlt_le, Rdiv_lt_0_compat; lra). rewrite fpow_half by auto. repeat fl1.
  assert (0 <= sqrt (G / d)) by apply sqrt_pos.
  assert (PP : 0 < 24/10 * Rg * sqrt (G / d) + T + 178/10) by nra. rewrite fpow_fin by exact PP. repeat fl1. cbv beta.
  change (972 / 1000 + 38 / 100000 * Rpower (24 / 10 * Rg * sqrt (G / d) + T + 178 / 10) (1175 / 1000)) with (oil_volume_factor d G Rg T).
  rewrite (fdiv_fin m 1) by lra. rewrite (fdiv_fin m 1 (oil_volume_factor d G Rg T)) by lra. repeat fl1. cbv beta.
  replace (d * (1 / (1 + 1 / 1000 * Rg)) * (1 / oil_volume_factor d G Rg T)) with (pseudo_density d G Rg T) by (unfold pseudo_density; change 0.001 with (1/1000); field; repeat split; lra).
  rewrite <- !fmul_fin, <- (fsub_fin (26/10)), oil_v_fin by auto. rewrite bind_fin, ?fmul_fin, ?fadd_fin. rewrite fdiv_fin by lra. repeat (first [fl1 | rewrite fdiv_fin by lra]; cbv beta). reflexivity.
Qed.
Lemma go_none m P T d G : 0 < P -> 0 < d ->
  BW_rho_K_go m (Fin P) (Fin T) (Fin d) (Fin G) None = BW_rho_K_go m (Fin P) (Fin T) (Fin d) (Fin G) (Some (Fin (max_gas_ratio d G T P))).
Proof.
  intros HP Hd. unfold BW_rho_K_go. rewrite fdiv_fin by lra. repeat fl1.
  assert (0 < P * exp (4072/1000 / d - 377/100000 * T)) by (apply Rmult_lt_0_compat; [auto|apply exp_pos]). rewrite fpow_fin by auto. repeat fl1. reflexivity.
Qed.
(** No dissolved gas: close to dead oil at zero pressure. *)
Lemma live_dead d G T : 0 < d -> 0 <= T <= 200 ->
  oil_density d T 0 <= live_density d G 0 T <= 1.001 * oil_density d T 0.
Proof.
  intros Hd HT. unfold live_density, oil_density, oil_volume_factor.
  replace (2.4 * 0 * sqrt (G / d) + T + 17.8) with (T + 17.8) by ring. replace (d + 0.0012 * G * 0) with d by ring.
  replace (d + (0.00277 * 0 - 1.71e-7 * 0^3) * (d - 1.15)^2 + 3.49e-4 * 0) with d by ring.
  set (y := T + 17.78). set (x := T + 17.8). assert (Y : 17.78 <= y <= 217.78) by (unfold y; lra).
  assert (X1 : Rpower y 1.175 < Rpower x 1.175) by (apply Rpower_lt_l; unfold x, y in *; lra).
  assert (X2 : Rpower x 1.175 <= 1.0023 * Rpower y 1.175).
  { replace (Rpower x 1.175) with (Rpower (y * (x / y)) 1.175) by (f_equal; field; lra). assert (Q : 1 <= x / y <= 1.00113). { unfold x, y. split; [apply le_div_iff; lra|apply div_le_iff; lra]. }
    unfold Rpower; rewrite ln_mult by lra; rewrite Rmult_plus_distr_l, exp_plus; fold (Rpower y 1.175); fold (Rpower (x / y) 1.175).
    assert (Rpower (x / y) 1.175 <= (x / y)^2). { rewrite <- (Rpower_pow 2) by lra. apply Rle_Rpower; [lra|cbn; lra]. }
    assert (A0 : 0 < Rpower y 1.175) by apply exp_pos. assert (A1 : (x / y)^2 <= 1.0023) by nra. rewrite (Rmult_comm 1.0023). apply Rmult_le_compat_l; lra. }
  assert (X3 : Rpower y 1.175 <= 850).
  { replace 1.175 with (1 + 0.175) by lra. rewrite Rpower_plus, Rpower_1 by lra.
    assert (Z : Rpower y 0.175 <= 3.9).
    { apply Rle_trans with (Rpower y (/2 * /2)); [apply Rle_Rpower; lra|]. rewrite <- Rpower_mult. rewrite (Rpower_sqrt y) by lra. rewrite Rpower_sqrt by (apply sqrt_lt_R0; lra).
      apply Rsqr_incr_0_var; [|lra]. rewrite Rsqr_sqrt by apply sqrt_pos. apply Rsqr_incr_0_var; [|unfold Rsqr; lra]. rewrite Rsqr_sqrt by lra. unfold Rsqr. lra. }
    assert (0 < Rpower y 0.175) by apply exp_pos. nra. }
  assert (0 < Rpower y 1.175) by apply exp_pos.
  set (a := Rpower y 1.175) in *. set (b := Rpower x 1.175) in *.
  split.
  - apply Rmult_le_compat_l; [lra|]. apply Rinv_le_contravar; lra.
  - apply div_le_iff; [lra|]. replace (1.001 * (d / (0.972 + 3.81e-4 * a)) * (0.972 + 0.00038 * b)) with (d * (1.001 * (0.972 + 0.00038 * b) / (0.972 + 3.81e-4 * a))) by (field; lra).
    rewrite <- (Rmult_1_r d) at 1. apply Rmult_le_compat_l; [lra|]. apply le_div_iff; lra.
Qed.
Lemma volume_factor_mono d G Rg Rg' T T' : 0 < d -> 0 < G -> 0 <= Rg -> Rg <= Rg' -> -17.8 < T -> T <= T' ->
  oil_volume_factor d G Rg T <= oil_volume_factor d G Rg' T' /\ (T < T' -> oil_volume_factor d G Rg T < oil_volume_factor d G Rg' T').
Proof.
  intros Hd HG HR LR HT LT. unfold oil_volume_factor. assert (0 < sqrt (G / d)) by (apply sqrt_lt_R0, Rdiv_lt_0_compat; auto).
  assert (0 <= Rg * sqrt (G / d)) by (apply Rmult_le_pos; lra).
  assert (A : 2.4 * Rg * sqrt (G / d) <= 2.4 * Rg' * sqrt (G / d)) by nra.
  assert (X : forall a b, 0 < a -> a < b -> Rpower a 1.175 < Rpower b 1.175) by (intros; apply Rpower_lt_l; lra).
  split.
  - destruct (Req_dec (2.4 * Rg * sqrt (G / d) + T + 17.8) (2.4 * Rg' * sqrt (G / d) + T' + 17.8)) as [-> | N]; [lra|].
    assert (Y := X (2.4 * Rg * sqrt (G / d) + T + 17.8) (2.4 * Rg' * sqrt (G / d) + T' + 17.8) ltac:(lra) ltac:(lra)). lra.
  - intros LT'. assert (Y := X (2.4 * Rg * sqrt (G / d) + T + 17.8) (2.4 * Rg' * sqrt (G / d) + T' + 17.8) ltac:(lra) ltac:(lra)). lra.
Qed.
