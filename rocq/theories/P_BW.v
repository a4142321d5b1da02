(** * Property theorems about BW.py (C43-C46). *)
From Coq Require Import Lra Lia.
From Coquelicot Require Coquelicot.
From Verif Require Import Fl M_Fluid M_BW Spec Spec5 RealLemmas L_BW L_BW2 L_BW3.
Open Scope R_scope.

(** ** C43: gases. *)
(** What a pressure sweep at fixed temperature must satisfy: the density follows the real-gas law, it increases with
    pressure, and the modulus is the adiabatic one, gamma rho / (d rho / dP), in GPa. *)
Definition gas_sweep (Ta t G pc : R) (rho K : R -> R) : Prop :=
  forall P, 0 < P ->
    rho P = gas_density G P Ta (z_factor (P / pc) t) /\ 0 < rho P /\ 0 < K P /\
    (forall P', P < P' -> rho P < rho P') /\
    exists d, derivable_pt_lim rho P d /\ 0 < d /\ K P = gamma0 (P / pc) * (rho P / d) / 1000.
Lemma sweep Ta t G pc : 0.85 <= t <= 4 -> 0 < Ta -> 0 < G -> 0 < pc -> gas_sweep Ta t G pc (grho Ta t G pc) (gK t pc).
Proof.
  intros Ht HTa HG Hpc P HP. split; [reflexivity|]. split; [apply grho_pos; auto|]. split; [apply gK_pos with (Ta := Ta) (G := G); auto|].
  split; [intros; apply grho_incr; auto|]. exists (gdrho Ta t G pc P). split; [apply Coquelicot.Derive.is_derive_Reals, grho_derive; auto|].
  split; [apply gdrho_pos; auto|]. apply gK_eq; auto.
Qed.
Theorem C43_gas m T G : -273.15 < T -> 0 < G < 12 -> 0.85 <= (T + 273.15) / (94.72 + 170.75 * G) <= 4 ->
  exists rho K, (forall P, 0 < P -> BW_rho_K_gas m (Fin P) (Fin T) (Fin G) = Ret (Fin (rho P), Fin (K P))) /\
    gas_sweep (T + 273.15) ((T + 273.15) / (94.72 + 170.75 * G)) G (4.892 - 0.4048 * G) rho K.
Proof.
  intros HT HG Ht. exists (grho (T + 273.15) ((T + 273.15) / (94.72 + 170.75 * G)) G (4.892 - 0.4048 * G)), (gK ((T + 273.15) / (94.72 + 170.75 * G)) (4.892 - 0.4048 * G)).
  split; [intros; apply gas_fin; auto|]. apply sweep; lra.
Qed.
Theorem C43_co2 m T G : -14 <= T <= 900 -> 0 < G ->
  exists rho K, (forall P, 0 < P -> BW_rho_K_co2 m (Fin P) (Fin T) (Fin G) = Ret (Fin (rho P), Fin (K P))) /\
    gas_sweep (T + 273.15) ((T + 273.15) / (31.1 + 273.5)) G 7.4 rho K.
Proof.
  intros HT HG. assert (Ht : 0.85 <= (T + 273.15) / (31.1 + 273.5) <= 4) by (split; [apply le_div_iff|apply div_le_iff]; lra).
  exists (grho (T + 273.15) ((T + 273.15) / (31.1 + 273.5)) G 7.4), (gK ((T + 273.15) / (31.1 + 273.5)) 7.4).
  split; [intros; apply co2_fin; lra|]. apply sweep; lra.
Qed.
(** [dz_dp] is the pressure derivative of the compressibility factor. *)
Theorem C43_dz_dp m p t : 0.85 <= t <= 4 -> 0 < p ->
  exists d, BW_dz_dp m (Fin p) (Fin t) = Ret (Fin d) /\ derivable_pt_lim (fun q => z_factor q t) p d.
Proof. intros Ht Hp. exists (dz p t). split; [apply dz_fin; auto|]. apply Coquelicot.Derive.is_derive_Reals, z_derive; lra. Qed.
(** The reduced temperature of CO2 is not one at the critical temperature 31.1 C, because 273.5 is added where Kelvin
    needs 273.15; at high pressure the density is provably not the one of the gas law. *)
Theorem C43_co2_critical_refuted m G P : 0 < G -> 148 <= P -> forall rho K,
  BW_rho_K_co2 m (Fin P) (Fin 31.1) (Fin G) = Ret (Fin rho, Fin K) ->
  rho < gas_density G P (31.1 + 273.15) (z_factor (P / 7.4) 1).
Proof.
  intros HG HP rho K. assert (Ht : 0.85 <= (31.1 + 273.15) / (31.1 + 273.5) <= 4) by lra. rewrite co2_fin by lra. intros [= <- _].
  assert (Hp : 20 <= P / 7.4) by (apply le_div_iff; lra). assert (C := co2_crit (P / 7.4) Hp). unfold grho, gas_density.
  assert (Z := z_pos (P / 7.4) 1 ltac:(lra) ltac:(lra)). set (z1 := z_factor (P / 7.4) 1) in *. set (z2 := z_factor (P / 7.4) _) in *.
  unfold Rdiv. apply Rmult_lt_compat_l; [apply Rmult_lt_0_compat; lra|]. apply Rinv_lt_contravar; [|lra].
  apply Rmult_lt_0_compat; lra.
Qed.
(** At low pressure the density is within 3.5 percent of the ideal gas, and it vanishes with the pressure. *)
Theorem C43_ideal_gas m T G : -273.15 < T -> 0 < G < 12 -> 0.85 <= (T + 273.15) / (94.72 + 170.75 * G) <= 2.7 ->
  exists P0, 0 < P0 /\ forall P, 0 < P -> P < P0 -> exists rho K,
    BW_rho_K_gas m (Fin P) (Fin T) (Fin G) = Ret (Fin rho, Fin K) /\
    Rabs (rho / gas_density G P (T + 273.15) 1 - 1) <= 0.035.
Proof.
  intros HT HG Ht. set (pc := 4.892 - 0.4048 * G). assert (Hpc : 0 < pc) by (unfold pc; lra). exists (pc / 1000). split; [lra|]. intros P HP L.
  do 2 eexists. split; [apply gas_fin; lra|]. fold pc. set (t := (T + 273.15) / (94.72 + 170.75 * G)) in *.
  assert (Hq : 0 < P / pc < 0.001) by (split; [apply Rdiv_lt_0_compat; lra|apply div_lt_iff; lra]).
  assert (A := z_near_z0 (P / pc) t Ht ltac:(lra)). assert (B := z0_bnd t Ht).
  unfold grho, gas_density; assert (Z : 0.97 <= z_factor (P / pc) t <= 1.036) by (revert A; unfold Rabs; destruct (Rcase_abs _); lra).
  set (z := z_factor (P / pc) t) in *; replace (28.8 * G * P / (z * 8.3145 * (T + 273.15)) / (28.8 * G * P / (1 * 8.3145 * (T + 273.15)))) with (1 / z) by (field; repeat split; lra).
  assert (0.965 <= 1 / z) by (apply le_div_iff; lra); assert (1 / z <= 1.035) by (apply div_le_iff; lra); apply Rabs_le; lra.
Qed.
Theorem C43_vacuum m T G : -273.15 < T -> 0 < G < 12 -> 0.85 <= (T + 273.15) / (94.72 + 170.75 * G) <= 4 ->
  BW_rho_K_gas m (Fin 0) (Fin T) (Fin G) = Ret (Fin 0, Fin 0).
Proof.
  intros HT HG Ht. unfold BW_rho_K_gas, BW_pseudo_p_t. repeat (first [fl1 | rewrite fdiv_fin by lra]; cbv beta zeta).
  replace (0 / (4892/1000 - 4048/10000 * G)) with 0 by (field; lra). apply tail_zero; [exact Ht|lra].
Qed.
Example C43_methane_100C : -273.15 < 100 /\ 0 < 0.56 < 12 /\ 0.85 <= (100 + 273.15) / (94.72 + 170.75 * 0.56) <= 2.7.
Proof. repeat split; lra. Qed.

(** ** C44: water and brine. *)
Theorem C44_water T P :
  BW_v_water (Fin T) (Fin P) = Ret (Fin (water_velocity T P)) /\
  BW_rho_K_water (Fin T) (Fin P) = Ret (Fin (water_density T P), Fin (water_density T P * water_velocity T P ^ 2 / 1000000)).
Proof. split; [apply v_water_fin|apply water_fin]. Qed.
Theorem C44_brine m T P S : 0 <= S ->
  BW_v_brine m (Fin T) (Fin P) (Fin S) = Ret (Fin (brine_velocity T P S)) /\
  BW_rho_K_brine m (Fin T) (Fin P) (Fin S) = Ret (Fin (brine_density T P S), Fin (brine_density T P S * brine_velocity T P S ^ 2 / 1000000)).
Proof. intros. split; [apply v_brine_fin|apply brine_fin]; auto. Qed.
Theorem C44_fresh m T P :
  BW_v_brine m (Fin T) (Fin P) (Fin 0) = BW_v_water (Fin T) (Fin P) /\
  BW_rho_K_brine m (Fin T) (Fin P) (Fin 0) = BW_rho_K_water (Fin T) (Fin P).
Proof.
  rewrite v_brine_fin, brine_fin, v_water_fin, water_fin by lra. unfold brine_density, brine_velocity. rewrite sqrt_0.
  split; reteq; repeat rewrite ?Rmult_0_l, ?Rmult_0_r, ?Rplus_0_r; try ring.
  all: replace (820 * 0 ^ 2) with 0 by ring; rewrite Rminus_0_r; reflexivity.
Qed.
(** On 0-100 C and 0-100 MPa: physical values, denser under pressure, and salt makes it denser, faster and stiffer. *)
Theorem C44_physical m T P S : 0 <= T <= 100 -> 0 <= P <= 100 -> 0 <= S <= 0.3 ->
  exists rw Kw vw rb Kb vb,
    BW_rho_K_water (Fin T) (Fin P) = Ret (Fin rw, Fin Kw) /\ BW_v_water (Fin T) (Fin P) = Ret (Fin vw) /\
    BW_rho_K_brine m (Fin T) (Fin P) (Fin S) = Ret (Fin rb, Fin Kb) /\ BW_v_brine m (Fin T) (Fin P) (Fin S) = Ret (Fin vb) /\
    0.9 < rw < 1.1 /\ 700 < vw /\ 0.44 < Kw /\ rw <= rb /\ vw <= vb /\ Kw <= Kb /\
    (0 < S -> rw < rb /\ vw < vb /\ Kw < Kb).
Proof.
  intros HT HP HS. do 6 eexists. rewrite v_water_fin, water_fin, v_brine_fin, brine_fin by lra. repeat (split; [reflexivity|]).
  assert (A := water_density_bnd T P HT HP). assert (B := water_velocity_bnd T P HT HP).
  assert (C := salt_density T P HT HP S HS). destruct (salt_velocity T P HT HP S HS) as [D1 D2].
  assert (E : water_density T P <= brine_density T P S) by (unfold brine_density; nra).
  assert (F : water_velocity T P <= brine_velocity T P S) by (unfold brine_velocity; lra).
  assert (F2 : water_velocity T P ^ 2 <= brine_velocity T P S ^ 2) by nra.
  split; [exact A|]. split; [exact B|]. split; [apply lt_div_iff; [lra|]; assert (490000 < water_velocity T P ^ 2) by nra; nra|].
  split; [exact E|]. split; [exact F|]. split; [apply Rmult_le_compat_r; [lra|]; apply Rmult_le_compat; try lra; apply pow2_ge_0|]. intros S0.
  assert (E' : water_density T P < brine_density T P S) by (unfold brine_density; nra).
  assert (F' : water_velocity T P < brine_velocity T P S) by (unfold brine_velocity; specialize (D2 S0); lra).
  split; [exact E'|]. split; [exact F'|]. apply Rmult_lt_compat_r; [lra|]. apply Rmult_le_0_lt_compat; try lra; [apply pow2_ge_0|nra].
Qed.
Theorem C44_water_trends :
  (forall T P P' r K r' K', 0 <= T <= 100 -> 0 <= P -> P < P' -> P' <= 100 ->
     BW_rho_K_water (Fin T) (Fin P) = Ret (Fin r, K) -> BW_rho_K_water (Fin T) (Fin P') = Ret (Fin r', K') -> r < r') /\
  (forall T T' r K r' K', 0 <= T -> T < T' -> T' <= 100 ->
     BW_rho_K_water (Fin T) (Fin 0) = Ret (Fin r, K) -> BW_rho_K_water (Fin T') (Fin 0) = Ret (Fin r', K') -> r' < r).
Proof.
  split; intros until K'; [intros HT HP L HP' | intros HT L HT']; rewrite !water_fin; intros [= <- _] [= <- _].
  - apply water_density_P; auto.
  - apply water_density_T; auto.
Qed.

(** ** C45: oil. *)
Theorem C45_dead_oil m P T d : 0 < d <= 1.08 -> -17.78 < T ->
  BW_rho_K_oil m (Fin P) (Fin T) (Fin d) = Ret (Fin (oil_density d T P), Fin (oil_density d T P * oil_velocity d T P ^ 2 / 1000000)).
Proof. apply oil_fin. Qed.
Theorem C45_dead_oil_trends m P T d r K : 0 < d <= 1.08 -> -17.78 < T -> 0 <= P <= 70 ->
  BW_rho_K_oil m (Fin P) (Fin T) (Fin d) = Ret (Fin r, Fin K) ->
  0 < r /\ 0 <= K /\
  (forall P' r' K', P < P' <= 70 -> BW_rho_K_oil m (Fin P') (Fin T) (Fin d) = Ret (Fin r', K') -> r < r') /\
  (forall T' r' K', T < T' -> BW_rho_K_oil m (Fin P) (Fin T') (Fin d) = Ret (Fin r', K') -> r' < r).
Proof.
  intros Hd HT HP. rewrite oil_fin by auto. intros [= <- <-]. assert (D := oil_density_pos d T P (proj1 Hd) HP).
  split; [exact D|]. split; [apply Rmult_le_pos; [apply Rmult_le_pos; [lra|apply pow2_ge_0]|lra]|]. split.
  - intros P' r' K' L. rewrite oil_fin by auto. intros [= <- _]. apply oil_density_P; lra.
  - intros T' r' K' L. rewrite oil_fin by lra. intros [= <- _]. apply oil_density_T; lra.
Qed.
(** A heavy oil (reference density above 1.08) has no modulus: the square root of a negative number. *)
Theorem C45_heavy_oil_refuted P T d : 1.08 < d < 2.6 -> -17.78 < T ->
  exists r, BW_rho_K_oil NumPy (Fin P) (Fin T) (Fin d) = Ret (Fin r, NaN).
Proof.
  intros H HT. unfold BW_rho_K_oil. exists (oil_density d T P).
  assert (B := oil_B_pos T). assert (PP : 0 < T + 1778/100) by lra. assert (B' : 0 < Rpower (T + 1778/100) (1175/1000)) by apply exp_pos.
  assert (X : 108/100 / d - 1 < 0). { assert (1.08 / d < 1) by (apply div_lt_iff; lra). lra. }
  assert (Y : 0 < d / (26/10 - d)) by (apply Rdiv_lt_0_compat; lra).
  repeat (first [fl1 | rewrite fdiv_fin by lra | rewrite fpow_fin by assumption]; cbv beta zeta).
  rewrite fpow_neg_np; [|lra|intros z Hz; assert (Q : 1 = IZR (2 * z)) by (rewrite mult_IZR; lra); apply (eq_IZR 1) in Q; lia].
  repeat (first [fl1 | progress cbn [bind fadd fsub fmul fneg fpown fdiv]]; cbv beta zeta).
  destruct (Req_EM_T 1000000 0); [lra|]. cbn [bind]. unfold oil_density.
  change (Rpower (T + 1778 / 100) (1175 / 1000)) with (Rpower (T + 17.78) 1.175). reteq; try reflexivity. f_equal; lra.
Qed.
Theorem C45_live_oil m P T d G Rg : 0 < d <= 1.04 -> 0 < G -> 0 <= Rg -> -17.8 < T ->
  BW_rho_K_go m (Fin P) (Fin T) (Fin d) (Fin G) (Some (Fin Rg)) =
  Ret (Fin (live_density d G Rg T), Fin (live_density d G Rg T * oil_velocity (pseudo_density d G Rg T) T P ^ 2 / 1000000)).
Proof. apply go_fin. Qed.
(** Leaving out the gas-oil ratio asks for the saturated one, which grows with pressure and falls with temperature. *)
Theorem C45_saturated m P T d G : 0 < P -> 0 < d -> 0 < G ->
  BW_rho_K_go m (Fin P) (Fin T) (Fin d) (Fin G) None = BW_rho_K_go m (Fin P) (Fin T) (Fin d) (Fin G) (Some (Fin (max_gas_ratio d G T P))) /\
  0 < max_gas_ratio d G T P /\
  (forall P', P < P' -> max_gas_ratio d G T P < max_gas_ratio d G T P') /\
  (forall T', T < T' -> max_gas_ratio d G T' P < max_gas_ratio d G T P).
Proof.
  intros HP Hd HG. split; [apply go_none; auto|]. unfold max_gas_ratio. split; [|split].
  - assert (0 < Rpower (P * exp (4.072 / d - 0.00377 * T)) 1.205) by apply exp_pos. apply Rmult_lt_0_compat; lra.
  - intros P' L. apply Rmult_lt_compat_l; [lra|]. assert (E : 0 < exp (4.072 / d - 0.00377 * T)) by apply exp_pos. apply Rpower_lt_l; [apply Rmult_lt_0_compat; auto|apply Rmult_lt_compat_r; auto|lra].
  - intros T' L. apply Rmult_lt_compat_l; [lra|]. apply Rpower_lt_l; [apply Rmult_lt_0_compat; [auto|apply exp_pos]| |lra]. apply Rmult_lt_compat_l; auto. apply exp_increasing. lra.
Qed.
(** Heating a live oil at a given gas content makes it lighter; dissolving gas lowers the pseudo-density that sets the velocity. *)
Theorem C45_live_trends d G Rg T : 0 < d -> 0 < G -> 0 <= Rg -> -17.8 < T ->
  (forall T', T < T' -> live_density d G Rg T' < live_density d G Rg T) /\
  (forall Rg', Rg < Rg' -> pseudo_density d G Rg' T < pseudo_density d G Rg T) /\
  0 < live_density d G Rg T.
Proof.
  intros Hd HG HR HT. assert (B := B_gt d G Rg T). assert (N : 0 < d + 0.0012 * G * Rg) by nra. split; [|split].
  - intros T' L. unfold live_density. unfold Rdiv. apply Rmult_lt_compat_l; [exact N|]. assert (B' := proj2 (volume_factor_mono d G Rg Rg T T' Hd HG HR ltac:(lra) HT ltac:(lra)) L).
    apply Rinv_lt_contravar; [|exact B']. apply Rmult_lt_0_compat; lra.
  - intros Rg' L. unfold pseudo_density, Rdiv. apply Rmult_lt_compat_l; [exact Hd|]. assert (B' := proj1 (volume_factor_mono d G Rg Rg' T T Hd HG HR ltac:(lra) HT ltac:(lra))).
    apply Rinv_lt_contravar; [|nra]. apply Rmult_lt_0_compat; apply Rmult_lt_0_compat; lra.
  - unfold live_density. apply Rdiv_lt_0_compat; lra.
Qed.
(** Without gas the live-oil density is within 0.1 percent of the dead-oil density at atmospheric pressure; it is not
    equal because the two formulas use slightly different constants. *)
Theorem C45_no_gas m d G T P : 0 < d <= 1.04 -> 0 < G -> 0 <= T <= 200 -> exists rl Kl rd Kd,
  BW_rho_K_go m (Fin P) (Fin T) (Fin d) (Fin G) (Some (Fin 0)) = Ret (Fin rl, Kl) /\
  BW_rho_K_oil m (Fin 0) (Fin T) (Fin d) = Ret (Fin rd, Kd) /\ rd <= rl <= 1.001 * rd.
Proof.
  intros Hd HG HT. do 4 eexists. rewrite go_fin, oil_fin by lra. split; [reflexivity|]. split; [reflexivity|]. apply live_dead; lra.
Qed.
Example C45_case : 0 < 0.85 <= 1.04 /\ 0 < 0.6 /\ 0 <= 80 /\ -17.8 < 60 /\ 0 <= 20 <= 70.
Proof. repeat split; lra. Qed.

(** ** C46: CO2-brine mixtures. *)
(** Conditions under which both fluids exist: [bw] selects the natural-gas law, which needs a slightly warmer fluid. *)
Definition co2_brine_range (bw : bool) (T P S : R) : Prop :=
  (if bw then 31 else 0) <= T <= 100 /\ 0 < P <= 100 /\ 0 <= S <= 0.3.
Definition co2_of (m : mode) (bw : bool) (P T : R) : outcome (fl * fl) :=
  if bw then BW_rho_K_gas m (Fin P) (Fin T) (Fin 1.5349) else BW_rho_K_co2 m (Fin P) (Fin T) (Fin 1.5349).
Lemma parts m bw T P S : co2_brine_range bw T P S -> exists rg Kg rb Kb,
  co2_of m bw P T = Ret (Fin rg, Fin Kg) /\ BW_rho_K_brine m (Fin T) (Fin P) (Fin S) = Ret (Fin rb, Fin Kb) /\
  0 < rg /\ 0 < Kg /\ 0 < rb /\ 0 < Kb.
Proof.
  intros (HT & HP & HS). assert (HT' : 0 <= T <= 100) by (destruct bw; lra).
  destruct (brine_K_gt T P S HT' ltac:(lra) HS) as (B1 & _ & B2).
  destruct bw; cbn [co2_of].
  - assert (Ht : 0.85 <= (T + 273.15) / (94.72 + 170.75 * 1.5349) <= 4) by (split; [apply le_div_iff|apply div_le_iff]; lra).
    do 4 eexists. rewrite gas_fin, brine_fin by lra. split; [reflexivity|]. split; [reflexivity|].
    split; [apply grho_pos; lra|]. split; [apply gK_pos with (Ta := T + 273.15) (G := 1.5349); lra|]. lra.
  - assert (Ht : 0.85 <= (T + 273.15) / (31.1 + 273.5) <= 4) by (split; [apply le_div_iff|apply div_le_iff]; lra).
    do 4 eexists. rewrite co2_fin, brine_fin by lra. split; [reflexivity|]. split; [reflexivity|].
    split; [apply grho_pos; lra|]. split; [apply gK_pos with (Ta := T + 273.15) (G := 1.5349); lra|]. lra.
Qed.
Lemma mix_eval m bw T P S s e rg Kg rb Kb : co2_of m bw P T = Ret (Fin rg, Fin Kg) -> BW_rho_K_brine m (Fin T) (Fin P) (Fin S) = Ret (Fin rb, Fin Kb) ->
  BW_co2_brine m (Fin T) (Fin P) (Fin S) (Fin s) e bw =
  match e with
  | None => let! k := fdiv NumPy (Fin 1) (fadd (fdiv NumPy (Fin (1 - s)) (Fin Kb)) (fdiv NumPy (Fin s) (Fin Kg))) in Ret (Fin ((1 - s) * rb + s * rg), k)
  | Some e => let! k := fadd (fmul (Fin (Kb - Kg)) (fpow m (Fin (1 - s)) e)) (Fin Kg) in Ret (Fin ((1 - s) * rb + s * rg), k)
  end.
Proof.
  intros E1 E2. unfold BW_co2_brine. change (15349/10000) with 1.5349. fold (co2_of m bw P T). rewrite E1, E2. cbn [call]. repeat fl1. destruct e; [|reflexivity].
  unfold Fluid_Brie. repeat fl1. destruct (fadd _ _); reflexivity.
Qed.
Theorem C46_mixture m bw T P S s : co2_brine_range bw T P S -> 0 <= s <= 1 -> exists rg Kg rb Kb kw,
  co2_of m bw P T = Ret (Fin rg, Fin Kg) /\ BW_rho_K_brine m (Fin T) (Fin P) (Fin S) = Ret (Fin rb, Fin Kb) /\ 0 < Kg /\ 0 < Kb /\
  BW_co2_brine m (Fin T) (Fin P) (Fin S) (Fin s) None bw = Ret (Fin ((1 - s) * rb + s * rg), Fin kw) /\
  1 / kw = (1 - s) / Kb + s / Kg /\ Rmin Kg Kb <= kw <= Rmax Kg Kb /\ Rmin rg rb <= (1 - s) * rb + s * rg <= Rmax rg rb /\
  (forall e, 0 < e -> exists kb, BW_co2_brine m (Fin T) (Fin P) (Fin S) (Fin s) (Some (Fin e)) bw = Ret (Fin ((1 - s) * rb + s * rg), Fin kb) /\
     (s < 1 -> kb = (Kb - Kg) * Rpower (1 - s) e + Kg) /\ Rmin Kg Kb <= kb <= Rmax Kg Kb /\ (e <= 1 -> Kg <= Kb -> kw <= kb)).
Proof.
  intros H Hs. destruct (parts m bw T P S H) as (rg & Kg & rb & Kb & E1 & E2 & P1 & P2 & P3 & P4).
  destruct (wood_bounds Kb Kg s P4 P2 Hs) as (D & W1 & W2).
  exists rg, Kg, rb, Kb, (1 / ((1 - s) / Kb + s / Kg)). repeat (split; [assumption|]).
  split. { rewrite (mix_eval m bw T P S s None rg Kg rb Kb E1 E2). rewrite !(fdiv_fin NumPy (1 - s)), !(fdiv_fin NumPy s) by lra. repeat fl1. rewrite fdiv_fin by lra. reflexivity. }
  split; [set (X := (1 - s) / Kb + s / Kg) in *; field; lra|]. split; [exact W1|]. split. { assert (Q := brie_bounds rb rg (1 - s) ltac:(lra)). lra. }
  intros e He. destruct (pow_unit m (1 - s) e ltac:(lra) He) as (w & Ew & Hw & _).
  exists ((Kb - Kg) * w + Kg). split; [rewrite (mix_eval m bw T P S s (Some (Fin e)) rg Kg rb Kb E1 E2), Ew; reflexivity|].
  split. { intros L. rewrite fpow_fin in Ew by lra. injection Ew as <-. reflexivity. }
  split; [apply brie_bounds; auto|].
  intros He1 HK. apply Rle_trans with (1 := W2). assert (1 - s <= w); [|nra].
  destruct (Req_dec s 1) as [-> | N]; [lra|]. rewrite fpow_fin in Ew by lra. injection Ew as <-. rewrite <- (Rpower_1 (1 - s)) at 1 by lra.
  unfold Rpower. assert (L : ln (1 - s) <= 0). { rewrite <- ln_1. destruct (Req_dec s 0) as [-> | ?]; [right; f_equal; ring|left; apply ln_increasing; lra]. }
  destruct (Rle_lt_or_eq_dec (1 * ln (1 - s)) (e * ln (1 - s))) as [Q | ->]; [nra|left; apply exp_increasing; auto|lra].
Qed.
Theorem C46_endpoints m bw T P S : co2_brine_range bw T P S ->
  (forall e, match e with None => True | Some x => exists y, x = Fin y /\ 0 < y end ->
     BW_co2_brine m (Fin T) (Fin P) (Fin S) (Fin 0) e bw = BW_rho_K_brine m (Fin T) (Fin P) (Fin S) /\
     BW_co2_brine m (Fin T) (Fin P) (Fin S) (Fin 1) e bw = co2_of m bw P T).
Proof.
  intros H e He. destruct (parts m bw T P S H) as (rg & Kg & rb & Kb & E1 & E2 & P1 & P2 & P3 & P4).
  rewrite !(mix_eval m bw T P S _ e rg Kg rb Kb E1 E2). rewrite E1, E2. destruct e as [x|].
  - destruct He as (y & -> & Hy). destruct (pow_unit m (1 - 0) y ltac:(lra) Hy) as (w & Ew & Hw & _ & _ & W1). destruct (pow_unit m (1 - 1) y ltac:(lra) Hy) as (w' & Ew' & Hw' & _ & W0 & _).
    rewrite Ew, Ew', W1, W0 by ring. repeat fl1. split; reteq; ring.
  - rewrite !(fdiv_fin NumPy _ Kb), !(fdiv_fin NumPy _ Kg) by lra. repeat fl1.
    replace ((1 - 0) / Kb + 0 / Kg) with (/ Kb) by (field; lra). replace ((1 - 1) / Kb + 1 / Kg) with (/ Kg) by (field; lra).
    rewrite !(fdiv_fin NumPy 1) by (apply Rinv_neq_0_compat; lra). repeat fl1. split; reteq; field; lra.
Qed.
(** Wood's law is not always the softer of the two: a large enough Brie exponent goes below it. *)
Theorem C46_brie_above_wood_refuted m bw T P S s : co2_brine_range bw T P S -> 0 < s < 1 ->
  (forall rg Kg rb Kb, co2_of m bw P T = Ret (Fin rg, Fin Kg) -> BW_rho_K_brine m (Fin T) (Fin P) (Fin S) = Ret (Fin rb, Fin Kb) -> Kg < Kb) ->
  exists e d kw kb, 0 < e /\ BW_co2_brine m (Fin T) (Fin P) (Fin S) (Fin s) None bw = Ret (d, Fin kw) /\
    BW_co2_brine m (Fin T) (Fin P) (Fin S) (Fin s) (Some (Fin e)) bw = Ret (d, Fin kb) /\ kb < kw.
Proof.
  intros H Hs HK. destruct (parts m bw T P S H) as (rg & Kg & rb & Kb & E1 & E2 & P1 & P2 & P3 & P4). specialize (HK _ _ _ _ E1 E2).
  destruct (wood_bounds Kb Kg s P4 P2 ltac:(lra)) as (D & _).
  set (kw := 1 / ((1 - s) / Kb + s / Kg)).
  assert (W : kw = Kb * Kg / ((1 - s) * Kg + s * Kb)) by (unfold kw; field; repeat split; try lra; nra).
  assert (N : 0 < (1 - s) * Kg + s * Kb) by nra.
  assert (Kw : Kg < kw). { rewrite W. apply lt_div_iff; [exact N|]. assert (0 < Kg * ((1 - s) * (Kb - Kg))) by (apply Rmult_lt_0_compat; [lra|apply Rmult_lt_0_compat; lra]). lra. }
  set (x := (kw - Kg) / (2 * (Kb - Kg))).
  assert (Hx : 0 < x) by (apply Rdiv_lt_0_compat; lra).
  assert (Kw2 : kw < Kb). { rewrite W. apply div_lt_iff; [exact N|]. assert (0 < Kb * (s * (Kb - Kg))) by (apply Rmult_lt_0_compat; [lra|apply Rmult_lt_0_compat; lra]). lra. }
  assert (Hx1 : x < 1) by (apply div_lt_iff; lra).
  assert (L1 : ln x < 0) by (rewrite <- ln_1; apply ln_increasing; lra). assert (L2 : ln (1 - s) < 0) by (rewrite <- ln_1; apply ln_increasing; lra).
  exists (ln x / ln (1 - s)), (Fin ((1 - s) * rb + s * rg)), kw, ((Kb - Kg) * x + Kg).
  assert (Q : Rpower (1 - s) (ln x / ln (1 - s)) = x) by (unfold Rpower; replace (ln x / ln (1 - s) * ln (1 - s)) with (ln x) by (field; lra); apply exp_ln; auto).
  split. { replace (ln x / ln (1 - s)) with ((- ln x) / (- ln (1 - s))) by (field; lra). apply Rdiv_lt_0_compat; lra. }
  split. { rewrite (mix_eval m bw T P S s None rg Kg rb Kb E1 E2). rewrite !(fdiv_fin NumPy (1 - s)), !(fdiv_fin NumPy s) by lra. repeat fl1. rewrite fdiv_fin by lra. reflexivity. }
  split. { rewrite (mix_eval m bw T P S s _ rg Kg rb Kb E1 E2). rewrite fpow_fin, Q by lra. reflexivity. }
  unfold x. replace ((Kb - Kg) * ((kw - Kg) / (2 * (Kb - Kg))) + Kg) with ((kw + Kg) / 2) by (field; lra). lra.
Qed.
(** CO2 below 2 MPa is softer than brine, so the hypothesis above is met. *)
Theorem C46_co2_softer m T P S rg Kg rb Kb : 0 <= T <= 100 -> 0 < P <= 2 -> 0 <= S <= 0.3 ->
  co2_of m false P T = Ret (Fin rg, Fin Kg) -> BW_rho_K_brine m (Fin T) (Fin P) (Fin S) = Ret (Fin rb, Fin Kb) -> Kg < Kb.
Proof.
  intros HT HP HS. assert (Ht : 0.89 <= (T + 273.15) / (31.1 + 273.5) <= 1.23) by (split; [apply le_div_iff|apply div_le_iff]; lra).
  unfold co2_of. rewrite co2_fin, brine_fin by lra. intros [= _ <-] [= _ <-]. assert (A := gK_small _ P Ht HP).
  destruct (brine_K_gt T P S HT ltac:(lra) HS) as (_ & _ & B). lra.
Qed.
Example C46_case : co2_brine_range false 40 1.5 0.035 /\ co2_brine_range true 40 10 0.035.
Proof. split; repeat split; lra. Qed.

Print Assumptions C43_gas.
Print Assumptions C43_co2.
Print Assumptions C43_dz_dp.
Print Assumptions C43_co2_critical_refuted.
Print Assumptions C43_ideal_gas.
Print Assumptions C43_vacuum.
Print Assumptions C44_water.
Print Assumptions C44_brine.
Print Assumptions C44_fresh.
Print Assumptions C44_physical.
Print Assumptions C44_water_trends.
Print Assumptions C45_dead_oil.
Print Assumptions C45_dead_oil_trends.
Print Assumptions C45_heavy_oil_refuted.
Print Assumptions C45_live_oil.
Print Assumptions C45_saturated.
Print Assumptions C45_live_trends.
Print Assumptions C45_no_gas.
Print Assumptions C46_mixture.
Print Assumptions C46_endpoints.
Print Assumptions C46_brie_above_wood_refuted.
Print Assumptions C46_co2_softer.
