(** * Lemmas about BW.py: gases at special conditions, CO2-brine mixtures. *)
From Coq Require Import Lra.
From Coquelicot Require Import Coquelicot.
From Verif Require Import Fl M_Fluid M_BW Spec Spec5 RealLemmas L_BW L_BW2.
Open Scope R_scope.

Lemma gas_fin m P T G : 0 < P -> -273.15 < T -> 0 < G < 12 -> 0.85 <= (T + 273.15) / (94.72 + 170.75 * G) <= 4 ->
  BW_rho_K_gas m (Fin P) (Fin T) (Fin G) =
  Ret (Fin (grho (T + 273.15) ((T + 273.15) / (94.72 + 170.75 * G)) G (4.892 - 0.4048 * G) P),
       Fin (gK ((T + 273.15) / (94.72 + 170.75 * G)) (4.892 - 0.4048 * G) P)).
Proof.
  intros HP HT HG Ht. unfold BW_rho_K_gas, BW_pseudo_p_t.
  repeat (first [fl1 | rewrite fdiv_fin by lra]; cbv beta zeta).
  apply tail_fin; [exact Ht|apply Rdiv_lt_0_compat; lra|lra].
Qed.
Lemma co2_fin m P T G : 0 < P -> -273.15 < T -> 0 < G -> 0.85 <= (T + 273.15) / (31.1 + 273.5) <= 4 ->
  BW_rho_K_co2 m (Fin P) (Fin T) (Fin G) =
  Ret (Fin (grho (T + 273.15) ((T + 273.15) / (31.1 + 273.5)) G 7.4 P), Fin (gK ((T + 273.15) / (31.1 + 273.5)) 7.4 P)).
Proof.
  intros HP HT HG Ht. unfold BW_rho_K_co2.
  repeat (first [fl1 | rewrite fdiv_fin by lra]; cbv beta zeta).
  apply tail_fin; [exact Ht|apply Rdiv_lt_0_compat; lra|lra].
Qed.
(** Zero pressure. *)
Lemma tail_zero m Ta t G : 0.85 <= t <= 4 -> 0 < Ta -> BW_gas_tail m (Fin 0) (Fin Ta) (Fin 0) (Fin t) (Fin G) = Ret (Fin 0, Fin 0).
Proof.
  intros Ht HTa. unfold BW_gas_tail, BW_dz_dp, BW_gas_k. assert (N : t <> 0) by lra.
  rewrite !(fpow_zero m) by lra. rewrite !(fdiv_fin m _ t) by exact N.
  repeat (first [fl1 | rewrite (fdiv_fin m _ t) by exact N]; cbv beta zeta).
  set (Z := (3 / 100 + 527 / 100000 * (35 / 10 - t) ^ 3) * 0 + (642 / 1000 * t - 7 / 1000 * t ^ 4 - 52 / 100) +
    109 / 1000 * (385 / 100 - t) ^ 2 * exp (- (45 / 100 + 8 * (56 / 100 - 1 / t) ^ 2) * 0 / t)).
  assert (HZ : 0 < Z).
  { assert (B := zb_pos t Ht). unfold zb in B. unfold Z.
    match goal with |- 0 < _ + 109/1000 * _ * exp ?e => assert (0 < exp e) by apply exp_pos; assert (0 <= 109/1000 * (385/100 - t)^2 * exp e) end.
    { apply Rmult_le_pos; [|lra]. assert (0 <= (385/100 - t)^2) by apply pow2_ge_0. lra. }
    lra. }
  assert (Q : (0 + 35/10)^2 <> 0) by (apply pow_nonzero; lra).
  rewrite (fdiv_fin m _ (0 + 2)) by lra. rewrite (fdiv_fin m _ ((0 + 35/10)^2)) by exact Q.
  assert (HZ2 : Z * (83145/10000) * Ta <> 0) by (repeat apply Rmult_integral_contrapositive_currified; lra).
  rewrite (fdiv_fin NumPy _ (Z * (83145/10000) * Ta)) by exact HZ2.
  repeat (first [fl1 | rewrite (fdiv_fin NumPy _ Z) by lra]; cbv beta zeta).
  match goal with |- context [fdiv NumPy (Fin 0) (Fin (1 - 0 * ?d / Z))] => replace (1 - 0 * d / Z) with 1 by (field; lra) end.
  repeat (first [fl1 | rewrite (fdiv_fin NumPy) by lra]; cbv beta zeta). reteq.
  - field; split; lra.
  - unfold Rdiv. ring.
Qed.
(** The ideal-gas limit. *)
Definition z0 t := zb t + 0.109 * (3.85 - t)^2.
Lemma z0_bnd t : 0.85 <= t <= 2.7 -> 0.975 <= z0 t <= 1.03.
Proof.
  intros H. unfold z0, zb. replace (0.642 * t - 0.007 * t^4 - 0.52 + 0.109 * (3.85 - t)^2) with (- 0.007 * t^4 + 0.109 * t^2 - 0.1973 * t + 1.0956525) by lra.
  split; [|].
  - assert (A : 0 <= (t - 0.85) * (2.7 - t)) by nra. assert (B : t^2 <= 3.55 * t - 2.295) by nra.
    assert (0 <= (t - 1)^2) by apply pow2_ge_0. assert (0 <= t^2 * ((t - 0.85) * (2.7 - t))) by (apply Rmult_le_pos; [nra|auto]).
    assert (0 <= t * ((t - 0.85) * (2.7 - t))) by (apply Rmult_le_pos; lra). nra.
  - assert (0 <= (t^2 - 4.3)^2) by apply pow2_ge_0. nra.
Qed.
Lemma z_near_z0 p t : 0.85 <= t <= 2.7 -> 0 < p <= 1 -> Rabs (z_factor p t - z0 t) <= 5 * p.
Proof.
  intros Ht Hp. rewrite z_split. unfold z0, zE.
  set (x := zk t * Rpower p 1.2 / t). replace (- zk t * Rpower p 1.2 / t) with (- x) by (unfold x; field; lra).
  assert (R1 : 0 < Rpower p 1.2) by apply exp_pos.
  assert (R2 : Rpower p 1.2 <= p).
  { destruct (Req_dec p 1) as [-> | N]. - unfold Rpower. rewrite ln_1, Rmult_0_r, exp_0. lra.
    - unfold Rpower. rewrite <- (exp_ln p) at 2 by lra. left. apply exp_increasing. assert (ln p < 0) by (rewrite <- ln_1; apply ln_increasing; lra). lra. }
  assert (Kp := zk_pos t).
  assert (I : 1 / t <= 1.18) by (apply div_le_iff; lra). assert (I0 : 0 < 1 / t) by (apply Rdiv_lt_0_compat; lra).
  assert (K2 : zk t <= 3.6) by (unfold zk; nra).
  assert (X : 0 <= x <= 4.25 * p).
  { unfold x. replace (zk t * Rpower p 1.2 / t) with ((1 / t) * zk t * Rpower p 1.2) by (field; lra).
    assert (0 < 1 / t * zk t) by (apply Rmult_lt_0_compat; auto). assert (1 / t * zk t <= 4.25) by nra. split; [|nra]. apply Rmult_le_pos; lra. }
  assert (E1 : exp (- x) <= 1). { rewrite <- exp_0. destruct (proj1 X) as [L | <-]; [left; apply exp_increasing; lra|right; f_equal; ring]. }
  assert (E2 : 1 - x <= exp (- x)). { assert (Q := exp_ineq1_le (- x)). lra. }
  assert (A := za_pos t ltac:(lra)).
  assert (A2 : za t <= 0.13). { unfold za. assert (0 <= (3.5 - t) <= 2.65) by lra. assert ((3.5 - t)^3 <= 2.65^3) by (apply pow_incr; lra). lra. }
  assert (C : 0 <= 0.109 * (3.85 - t)^2 <= 0.981) by nra.
  set (c := 0.109 * (3.85 - t)^2) in *. apply Rabs_le. split; nra.
Qed.
(** CO2: the critical temperature. *)
Lemma co2_crit p : 20 <= p -> z_factor p 1 < z_factor p ((31.1 + 273.15) / (31.1 + 273.5)).
Proof.
  intros Hp. rewrite !z_split. set (t := (31.1 + 273.15) / (31.1 + 273.5)).
  assert (T : t = 6085/6092) by (unfold t; lra). assert (A : za 1 + 0.000113 <= za t) by (rewrite T; unfold za; lra).
  assert (B : zb 1 - 0.00071 <= zb t) by (rewrite T; unfold zb; lra).
  assert (C := zE_nonneg p t).
  assert (D : zE p 1 <= 0.00107).
  { unfold zE. replace (- zk 1 * Rpower p 1.2 / 1) with (- (zk 1 * Rpower p 1.2)) by field.
    assert (R : p <= Rpower p 1.2). { rewrite <- (Rpower_1 p) at 1 by lra. apply Rle_Rpower; lra. }
    assert (K : 1.99 <= zk 1) by (unfold zk; lra).
    assert (X : 39.8 <= zk 1 * Rpower p 1.2) by nra.
    assert (E := exp_neg_le (zk 1 * Rpower p 1.2) ltac:(lra)).
    assert (F : / (1 + zk 1 * Rpower p 1.2 + (zk 1 * Rpower p 1.2)^2 / 2) <= / 832.8) by (apply Rinv_le_contravar; nra). lra. }
  nra.
Qed.
(** Mixtures *)
Lemma wood_bounds Kb Kg s : 0 < Kb -> 0 < Kg -> 0 <= s <= 1 ->
  0 < (1 - s) / Kb + s / Kg /\ Rmin Kg Kb <= 1 / ((1 - s) / Kb + s / Kg) <= Rmax Kg Kb /\ 1 / ((1 - s) / Kb + s / Kg) <= Kg + (Kb - Kg) * (1 - s).
Proof.
  intros Hb Hg Hs.
  assert (D : (1 - s) / Kb + s / Kg = ((1 - s) * Kg + s * Kb) / (Kb * Kg)) by (field; lra).
  assert (N : 0 < (1 - s) * Kg + s * Kb) by (destruct (Req_dec s 0) as [-> | ?]; nra).
  assert (M : 0 < Kb * Kg) by (apply Rmult_lt_0_compat; auto).
  assert (W : 1 / ((1 - s) / Kb + s / Kg) = Kb * Kg / ((1 - s) * Kg + s * Kb)) by (rewrite D; field; lra).
  split; [rewrite D; apply Rdiv_lt_0_compat; auto|]. rewrite W. split; [split|].
  - apply le_div_iff; auto. unfold Rmin. destruct (Rle_dec Kg Kb); [assert (0 <= Kg * ((1 - s) * (Kb - Kg))) by (apply Rmult_le_pos; [lra|apply Rmult_le_pos; lra]) | assert (0 <= Kb * (s * (Kg - Kb))) by (apply Rmult_le_pos; [lra|apply Rmult_le_pos; lra])]; lra.
  - apply div_le_iff; auto. unfold Rmax. destruct (Rle_dec Kg Kb); [assert (0 <= Kb * (s * (Kb - Kg))) by (apply Rmult_le_pos; [lra|apply Rmult_le_pos; lra]) | assert (0 <= Kg * ((1 - s) * (Kg - Kb))) by (apply Rmult_le_pos; [lra|apply Rmult_le_pos; lra])]; lra.
  - apply div_le_iff; auto. assert (0 <= (1 - s) * s * (Kb - Kg)^2) by (apply Rmult_le_pos; [nra|apply pow2_ge_0]). nra.
Qed.
Lemma brie_bounds Kb Kg w : 0 <= w <= 1 -> Rmin Kg Kb <= (Kb - Kg) * w + Kg <= Rmax Kg Kb.
Proof. intros. unfold Rmin, Rmax. destruct (Rle_dec Kg Kb); split; nra. Qed.
Lemma pow_unit m s e : 0 <= s <= 1 -> 0 < e -> exists w, fpow m (Fin s) (Fin e) = Fin w /\ 0 <= w <= 1 /\ (e = 1 -> w = s) /\ (s = 0 -> w = 0) /\ (s = 1 -> w = 1).
Proof.
  intros Hs He. destruct (Req_dec s 0) as [-> | N].
  - exists 0. rewrite fpow_zero by lra. repeat split; lra.
  - exists (Rpower s e). rewrite fpow_fin by lra. split; [reflexivity|]. split; [split; [left; apply exp_pos|]|].
    + unfold Rpower. rewrite <- exp_0. assert (L : ln s <= 0). { rewrite <- ln_1. destruct (Req_dec s 1) as [-> | ?]; [lra|left; apply ln_increasing; lra]. }
      destruct (Rle_lt_or_eq_dec (e * ln s) 0) as [Q | ->]; [nra|left; apply exp_increasing; auto|lra].
    + split; [intros ->; apply Rpower_1; lra|]. split; [lra|]. intros ->. unfold Rpower. rewrite ln_1, Rmult_0_r. apply exp_0.
Qed.
(** A gas at low pressure is softer than brine. *)
Lemma gK_small t P : 0.89 <= t <= 1.23 -> 0 < P <= 2 -> gK t 7.4 P < 0.4.
Proof.
  intros Ht HP. unfold gK. set (p := P / 7.4). assert (Hp : 0 < p <= 0.28) by (unfold p; split; [apply Rdiv_lt_0_compat; lra|apply div_le_iff; lra]).
  assert (Zp : 0 < z_factor p t) by (apply z_pos; lra).
  assert (Zd := zpz p t ltac:(lra) (proj1 Hp)).
  assert (B : 0.045 <= zb t).
  { unfold zb. assert (A : t^2 <= 2.12 * t - 1.0947) by nra. assert (0 <= t^2) by apply pow2_ge_0.
    assert (t^4 <= 4.4944 * t^2 - 4.641 * t + 1.1984) by (replace (t^4) with ((t^2)^2) by ring; nra). lra. }
  assert (L : zb t <= z_factor p t - p * dz p t).
  { rewrite z_split. unfold dz.
    replace (za t * p + zb t + zE p t - p * (za t + 0.109 * (3.85 - t) ^ 2 * 1.2 * Rpower p 0.2 * - zk t / t * exp (- zk t * Rpower p 1.2 / t)))
      with (zb t + (zE p t + p * (0.109 * (3.85 - t) ^ 2 * 1.2 * Rpower p 0.2 * zk t / t * exp (- zk t * Rpower p 1.2 / t)))) by (field; lra).
    assert (X := zE_nonneg p t). assert (K := zk_pos t).
    assert (0 <= p * (0.109 * (3.85 - t) ^ 2 * 1.2 * Rpower p 0.2 * zk t / t * exp (- zk t * Rpower p 1.2 / t))); [|lra].
    apply Rmult_le_pos; [lra|]. apply Rmult_le_pos; [|left; apply exp_pos]. apply Rmult_le_pos; [|left; apply Rinv_0_lt_compat; lra].
    apply Rmult_le_pos; [|lra]. apply Rmult_le_pos; [|left; apply exp_pos]. assert (0 <= (3.85 - t)^2) by apply pow2_ge_0. lra. }
  assert (U : z_factor p t <= zb t + 1.01).
  { rewrite z_split. unfold zE. assert (K := zk_pos t). assert (R1 : 0 < Rpower p 1.2) by apply exp_pos.
    assert (E1 : exp (- zk t * Rpower p 1.2 / t) <= 1).
    { rewrite <- exp_0. left. apply exp_increasing. replace (- zk t * Rpower p 1.2 / t) with (- (zk t * Rpower p 1.2 / t)) by (field; lra).
      assert (0 < zk t * Rpower p 1.2 / t) by (apply Rdiv_lt_0_compat; [apply Rmult_lt_0_compat|]; lra). lra. }
    assert (E0 : 0 < exp (- zk t * Rpower p 1.2 / t)) by apply exp_pos.
    assert (A2 : za t <= 0.13). { unfold za. assert ((3.5 - t)^3 <= 2.61^3) by (apply pow_incr; lra). lra. }
    assert (A := za_pos t ltac:(lra)). assert (C : 0 <= 0.109 * (3.85 - t)^2 <= 0.956) by nra. nra. }
  replace (P / (1 - p * dz p t / z_factor p t)) with (P * (z_factor p t / (z_factor p t - p * dz p t))) by (field; lra).
  assert (Q : z_factor p t / (z_factor p t - p * dz p t) <= 24). { apply div_le_iff; [lra|]. nra. }
  assert (Q0 : 0 < z_factor p t / (z_factor p t - p * dz p t)) by (apply Rdiv_lt_0_compat; lra).
  assert (G0 := gamma0_pos p ltac:(lra)).
  assert (G1 : gamma0 p <= 5.9).
  { unfold gamma0. assert (0 < exp (- 0.65 * (p + 1))) by apply exp_pos.
    assert (5.6 / (p + 2) <= 2.8) by (apply div_le_iff; lra). assert (27.1 / (p + 3.5)^2 <= 2.22) by (apply div_le_iff; nra). lra. }
  assert (PQ : P * (z_factor p t / (z_factor p t - p * dz p t)) <= 48) by nra.
  assert (PQ0 : 0 < P * (z_factor p t / (z_factor p t - p * dz p t))) by (apply Rmult_lt_0_compat; lra).
  apply div_lt_iff; [lra|]. nra.
Qed.
Lemma brine_K_gt T P S : 0 <= T <= 100 -> 0 <= P <= 100 -> 0 <= S <= 0.3 ->
  0.9 < brine_density T P S /\ 700 < brine_velocity T P S /\ 0.44 < brine_density T P S * brine_velocity T P S ^ 2 / 1000000.
Proof.
  intros HT HP HS. assert (A := water_density_bnd T P HT HP). assert (B := water_velocity_bnd T P HT HP).
  assert (C := salt_density T P HT HP S HS). assert (D := proj1 (salt_velocity T P HT HP S HS)).
  assert (E : 0.9 < brine_density T P S) by (unfold brine_density; nra). assert (F : 700 < brine_velocity T P S) by (unfold brine_velocity; lra).
  split; [exact E|]. split; [exact F|]. apply lt_div_iff; [lra|]. assert (490000 < brine_velocity T P S ^ 2) by nra. nra.
Qed.
