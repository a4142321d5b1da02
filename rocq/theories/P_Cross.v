(** * Property theorems relating different models of the library (C73, C74). *)
From Coq Require Import Lra Lia.
From Verif Require Import Fl M_Utils M_EM M_Anis M_Fluid Spec RealLemmas L_Utils L_Lists L_EM1 L_Anis L_Fluid1 L_EM2 L_EM6 L_Cross L_Crack P_EM P_Anis.
Open Scope R_scope.

(** ** C73: Gassmann, Hashin-Shtrikman, Reuss and the self-consistent scheme *)
(** Filling the pores of the stiffest dry rock by Gassmann gives the stiffest saturated rock. *)
Theorem C73_gassmann_of_hs_dry m K0 G0 Kf phi : 0 < G0 -> 0 < Kf < K0 -> 0 < phi <= 1 -> exists Kd Gd Ks,
  EM_HS m (Fin (1 - phi)) (Fin K0) (Fin 0) (Fin G0) (Fin 0) "upper" = Ret (Fin Kd, Fin Gd) /\
  EM_HS m (Fin (1 - phi)) (Fin K0) (Fin Kf) (Fin G0) (Fin 0) "upper" = Ret (Fin Ks, Fin Gd) /\
  Fluid_Gassmann m (Fin Kd) (Fin Gd) (Fin K0) (Fin Kf) (Fin phi) = Ret (Fin Ks, Fin Gd) /\ 0 <= Kd < Ks.
Proof.
  intros HG HK Hp. do 3 eexists. split; [apply HS_upper0; lra|]. split; [apply HS_upper0; lra|].
  destruct (hs_dry_lt K0 G0 phi ltac:(lra) HG Hp) as (A & B).
  rewrite <- (gassmann_hs K0 G0 Kf phi HG HK Hp).
  assert (GB := gB_pos _ K0 Kf phi ltac:(lra) ltac:(lra) Hp : (1 - walpole (zK G0) (1 - phi) K0 0 / K0) / K0 <= _).
  assert (Gb := gb_pos _ K0 ltac:(lra) (conj A B)).
  split; [apply Gassmann_eval; lra|]. split; [exact A|].
  apply (gK_range (walpole (zK G0) (1 - phi) K0 0) K0 Kf phi); lra.
Qed.
Print Assumptions C73_gassmann_of_hs_dry.

(** Without a frame Gassmann gives the Reuss average of mineral and fluid. *)
Theorem C73_gassmann_without_frame m K0 Gd Kf phi : 0 < K0 -> 0 < Kf -> 0 <= phi <= 1 -> exists v r h,
  EM_VRH [Fin (1 - phi); Fin phi] [Fin K0; Fin Kf] = Ret (Fin v, Fin r, Fin h) /\
  Fluid_Gassmann m (Fin 0) (Fin Gd) (Fin K0) (Fin Kf) (Fin phi) = Ret (Fin r, Fin Gd).
Proof.
  intros HK HF Hp. destruct (gassmann_reuss K0 Kf phi HF HK Hp) as (N & E). destruct (VRH_two K0 Kf phi HK HF Hp) as (v & h & EV).
  do 3 eexists. split; [exact EV|]. rewrite Gassmann_eval by lra. rewrite E. reflexivity.
Qed.
Print Assumptions C73_gassmann_without_frame.

(** A frame no stiffer than the stiff dry bound gives a saturated rock between the Reuss average and the stiff saturated bound. *)
Theorem C73_gassmann_within_bounds m K0 G0 Gd Kf phi : 0 < G0 -> 0 < Kf < K0 -> 0 < phi <= 1 -> exists Ku Gu v r h Ksu,
  EM_HS m (Fin (1 - phi)) (Fin K0) (Fin 0) (Fin G0) (Fin 0) "upper" = Ret (Fin Ku, Fin Gu) /\
  EM_HS m (Fin (1 - phi)) (Fin K0) (Fin Kf) (Fin G0) (Fin 0) "upper" = Ret (Fin Ksu, Fin Gu) /\
  EM_VRH [Fin (1 - phi); Fin phi] [Fin K0; Fin Kf] = Ret (Fin v, Fin r, Fin h) /\
  forall Kd, 0 <= Kd <= Ku -> exists Ks,
    Fluid_Gassmann m (Fin Kd) (Fin Gd) (Fin K0) (Fin Kf) (Fin phi) = Ret (Fin Ks, Fin Gd) /\ r <= Ks <= Ksu.
Proof.
  intros HG HK Hp. destruct (VRH_two K0 Kf phi ltac:(lra) ltac:(lra) ltac:(lra)) as (v & h & EV).
  destruct (hs_dry_lt K0 G0 phi ltac:(lra) HG Hp) as (A & B).
  do 6 eexists. split; [apply HS_upper0; lra|]. split; [apply HS_upper0; lra|]. split; [exact EV|].
  intros Kd Hd. exists (gK Kd K0 Kf phi). split.
  - assert (GB := gB_pos Kd K0 Kf phi ltac:(lra) ltac:(lra) Hp). assert (Gb := gb_pos Kd K0 ltac:(lra) ltac:(lra)).
    apply Gassmann_eval; lra.
  - rewrite <- (proj2 (gassmann_reuss K0 Kf phi ltac:(lra) ltac:(lra) ltac:(lra))), <- (gassmann_hs K0 G0 Kf phi HG HK Hp).
    split; apply gK_mono_Kd; lra.
Qed.
Print Assumptions C73_gassmann_within_bounds.

(** A state that the self-consistent iteration leaves unchanged lies within the Hashin-Shtrikman bounds, whether the
    inclusions are the softer or the stiffer phase. *)
Theorem C73_self_consistent_within_hs m f Km Gm Ki Gi K G :
  0 < Km -> 0 < Gm -> 0 < Ki -> 0 < Gi -> 0 < (Km - Ki) * (Gm - Gi) -> 0 <= f <= 1 -> 0 < K -> 0 < G -> K <> Ki -> G <> Gi ->
  EM_SC_flex_step m (Fin f) (Fin Km) (Fin Ki) (Fin Gm) (Fin Gi) (Fin K) (Fin G) = Ret (Fin K, Fin G) ->
  exists Ka Ga Kb Gb,
    EM_HS m (Fin (1 - f)) (Fin Km) (Fin Ki) (Fin Gm) (Fin Gi) "upper" = Ret (Fin Ka, Fin Ga) /\
    EM_HS m (Fin (1 - f)) (Fin Km) (Fin Ki) (Fin Gm) (Fin Gi) "lower" = Ret (Fin Kb, Fin Gb) /\
    Rmin Ka Kb <= K <= Rmax Ka Kb /\ Rmin Ga Gb <= G <= Rmax Ga Gb.
Proof.
  intros H1 H2 H3 H4 HS Hf HK HG NK NG E. apply flex_fixed in E; try lra. destruct E as (EK & EG).
  assert (D : Ki < Km /\ Gi < Gm \/ Km < Ki /\ Gm < Gi).
  { destruct (Rtotal_order Ki Km) as [L|[L|L]]; destruct (Rtotal_order Gi Gm) as [M|[M|M]]; subst; auto; exfalso; nra. }
  destruct (HS_walpole m (1 - f) Km Ki Gm Gi) as [U L]; try lra.
  do 4 eexists. split; [apply U; lra|]. split; [apply L; try lra; discriminate|].
  destruct D as [D|D].
  - destruct (sc_bounds (1 - f) Km Gm Ki Gi K G) as (B1 & B2); try lra.
    rewrite !Rmin_right, !Rmax_left by lra. split; lra.
  - rewrite walpole_sym in EK, EG. rewrite !(walpole_sym _ (1 - f)). 
    destruct (sc_bounds (1 - (1 - f)) Ki Gi Km Gm K G) as (B1 & B2); try lra.
    rewrite !Rmin_left, !Rmax_right by lra. split; lra.
Qed.
Print Assumptions C73_self_consistent_within_hs.

(** The two self-consistent iterations for empty pores have the same equilibria: what EM_SC converges to below half
    porosity is left unchanged by a pass of SC_flex. *)
Theorem C73_pore_iterations_agree m Ks Gs phi : 0 < Ks -> 0 < Gs -> 0 <= phi < 1/2 -> exists k g a b,
  (forall n, EM_SC m (Fin phi) (Fin Ks) (Fin Gs) (Z.of_nat n) = Ret (Fin (k n), Fin (g n))) /\
  Un_cv k a /\ Un_cv g b /\ 0 < a /\ 0 < b /\
  EM_SC_flex_step m (Fin phi) (Fin Ks) (Fin 0) (Fin Gs) (Fin 0) (Fin a) (Fin b) = Ret (Fin a, Fin b).
Proof.
  intros HK HG Hp. destruct (C20_sc_iteration m Ks Gs HK HG) as (k & g & H). specialize (H phi ltac:(lra)).
  destruct H as (H1 & _ & _ & _ & _ & _ & _ & _ & H2 & _). destruct (H2 ltac:(lra)) as (a & b & C1 & C2 & Pa & Pb & Ea & Eb & _).
  exists (k phi), (g phi), a, b. do 5 (split; [assumption || lra|]).
  apply flex_fixed; try lra.
  assert (Pz := zG_pos a b ltac:(lra) ltac:(lra)). assert (Pk : 0 < zK b) by (unfold zK; lra).
  split; apply sc_walpole; try lra.
  - assert (Q : Ks = a + (Ks + 3 * a * Ks / (4 * b)) * phi).
    { transitivity (a * Ks * (1 / a)); [field; lra|]. rewrite Ea. field. lra. }
    unfold zK in *. apply (Rplus_eq_reg_r ((Ks + 3 * a * Ks / (4 * b)) * phi)). rewrite <- Q. field. lra.
  - assert (Q : Gs = b + (15 * a + 20 * b) / (9 * a + 8 * b) * phi * Gs).
    { transitivity (b * Gs * (1 / b)); [field; lra|]. rewrite Eb. field. lra. }
    apply (Rplus_eq_reg_r ((15 * a + 20 * b) / (9 * a + 8 * b) * phi * Gs)). rewrite <- Q. unfold zG. field. lra.
Qed.
Print Assumptions C73_pore_iterations_agree.

(** ** C74: layers and cracks *)
(** Layers that share one shear modulus behave as an isotropic solid with that shear modulus. *)
Theorem C74_equal_shear_layers L G : good_layers L -> Forall (fun x => lg x = G) L -> exists M, 0 < M /\
  1 / M = avg (fun x => 1 / (ll x + 2 * lg x)) L /\
  Backus_of L = Ret (Fin M, Fin M, Fin (M - 2 * G), Fin G, Fin G).
Proof.
  intros HL HG. destruct (Backus_equal_shear L G HL HG) as (P & E). cbv zeta in P, E.
  eexists. split; [|split; [|exact E]]; [apply Rinv_0_lt_compat; exact P|]. field. lra.
Qed.
Print Assumptions C74_equal_shear_layers.
(** For two materials this is the average of MT_average, whatever bulk modulus it is given for the matrix. *)
Theorem C74_two_layers_are_hill m f K1 K2 G Km : 0 < K1 -> 0 < K2 -> 0 < G -> 0 < Km -> 0 <= f <= 1 -> exists K, 0 < K /\
  EM_MT_average m (Fin f) (Fin Km) (Fin G) (Fin K1) (Fin G) (Fin K2) (Fin G) = Ret (Fin K, Fin G) /\
  Backus_of [(f, K1 - 2/3 * G, G); (1 - f, K2 - 2/3 * G, G)] =
    Ret (Fin (K + 4/3 * G), Fin (K + 4/3 * G), Fin (K - 2/3 * G), Fin G, Fin G).
Proof.
  intros H1 H2 HG Hm Hf. exists (walpole (zK G) f K1 K2). assert (Pk : 0 < zK G) by (unfold zK; lra).
  split; [|split].
  - destruct (Rle_or_lt K2 K1).
    + destruct (walpole_between (zK G) f K1 K2); lra.
    + rewrite walpole_sym. destruct (walpole_between (zK G) (1 - f) K2 K1); lra.
  - rewrite C24_mt_is_walpole by lra. rewrite walpole_same by (assert (P := zG_pos Km G Hm HG); lra). reflexivity.
  - destruct (Backus_equal_shear [(f, K1 - 2/3 * G, G); (1 - f, K2 - 2/3 * G, G)] G) as (P & E).
    + unfold good_layers, sumf, lv, ll, lg. cbn. repeat split; repeat (apply Forall_cons; [cbn; lra|]); try apply Forall_nil; lra.
    + apply Forall_cons; [reflexivity|apply Forall_cons; [reflexivity|apply Forall_nil]].
    + cbv zeta in P, E. unfold backus_call in E. rewrite E. clear E.
      assert (Q : avg (fun x => 1 / (ll x + 2 * lg x)) [(f, K1 - 2/3 * G, G); (1 - f, K2 - 2/3 * G, G)] = f / (K1 + zK G) + (1 - f) / (K2 + zK G)).
      { unfold avg, sumf, lv, ll, lg, zK. cbn [map sumR fst snd]. field. split; lra. }
      rewrite Q in *. unfold walpole, zK. reteq; lra.
Qed.
Print Assumptions C74_two_layers_are_hill.

(** Thin cracks of a given density e (volume fraction 4/3 pi al e), empty or filled with a fluid whose modulus is k al:
    as the aspect ratio al tends to 0, Eshelby_Cheng's C33, C13, C44 and C66 tend to those of Hudson's first-order
    model for the same cracks, which do not depend on al. *)
Theorem C74_thin_cracks m K G k e : 0 < K -> 0 < G -> 0 <= k -> exists h : rmat,
  (forall al, 0 < al -> EM_hudson m (Fin K) (Fin G) (Fin (k * al)) (Fin 0) (Fin al) (Fin e) 1 3 = Ret (finmat h)) /\
  forall eps, 0 < eps -> exists d, 0 < d /\ forall al, 0 < al < d -> exists c11 c33 c13 c44 c66,
  EM_Eshelby_Cheng m (Fin K) (Fin G) (Fin (4/3 * PI * al * e)) (Fin al) (Fin (k * al)) false =
    Ret (EC_array (Fin c11) (Fin c33) (Fin c13) (Fin c44) (Fin c66)) /\
  Rabs (c33 - h 2%nat 2%nat) < eps /\ Rabs (c13 - h 0%nat 2%nat) < eps /\
  Rabs (c44 - h 3%nat 3%nat) < eps /\ Rabs (c66 - h 5%nat 5%nat) < eps.
Proof.
  intros HK HG Hk.
  assert (EH := hudson_eval m K G (k * 1) 0 1 e ltac:(unfold host; repeat split; lra) 1 3 ltac:(left; reflexivity)).
  cbn [Z.eqb Pos.eqb] in EH. eexists. split.
  - intros al Ha. rewrite hudson_thin by assumption. exact EH.
  - clear EH. intros eps He. destruct (thin_limit m K G k e HK HG Hk 1 ltac:(lra) eps He) as (d & Hd & T).
    exists d. split; [exact Hd|]. intros al Ha. destruct (T al Ha) as (c11 & c33 & c13 & c44 & c66 & E & _ & B33 & B13 & B44 & B66).
    exists c11, c33, c13, c44, c66. split; [exact E|]. unfold vti, ofrows. cbn [nth].
    replace (K - 2 * G / 3) with (K - 2/3 * G) by field. rewrite !Rmult_0_l, !Rplus_0_r. repeat split; assumption.
Qed.
Print Assumptions C74_thin_cracks.
(** C11 is different: Eshelby_Cheng's tends to the value of the uncracked rock, Hudson's is lower by lambda^2 e U3 / G. *)
Theorem C74_thin_crack_c11_refuted m K G k e : 0 < K -> 0 < G -> 3 * K <> 2 * G -> 0 <= k -> e <> 0 -> exists h : rmat,
  (forall al, 0 < al -> EM_hudson m (Fin K) (Fin G) (Fin (k * al)) (Fin 0) (Fin al) (Fin e) 1 3 = Ret (finmat h)) /\
  h 0%nat 0%nat <> K + 4/3 * G /\
  forall eps, 0 < eps -> exists d, 0 < d /\ forall al, 0 < al < d -> exists c11 c33 c13 c44 c66,
  EM_Eshelby_Cheng m (Fin K) (Fin G) (Fin (4/3 * PI * al * e)) (Fin al) (Fin (k * al)) false =
    Ret (EC_array (Fin c11) (Fin c33) (Fin c13) (Fin c44) (Fin c66)) /\
  Rabs (c11 - (K + 4/3 * G)) < eps.
Proof.
  intros HK HG NK Hk Ne.
  assert (EH := hudson_eval m K G (k * 1) 0 1 e ltac:(unfold host; repeat split; lra) 1 3 ltac:(left; reflexivity)).
  cbn [Z.eqb Pos.eqb] in EH. eexists. split; [|split].
  - intros al Ha. rewrite hudson_thin by assumption. exact EH.
  - clear EH. unfold vti, ofrows. cbn [nth]. set (lam := K - 2 * G / 3). rewrite Rmult_0_l, Rplus_0_r.
    assert (PU : 0 < penny_U3 lam G (k * 1) 0 1).
    { unfold penny_U3. assert (P := PI_RGT_0). assert (0 < lam + G /\ 0 < lam + 2 * G) by (unfold lam; lra).
      apply Rdiv_lt_0_compat; [apply Rdiv_lt_0_compat; lra|]. apply Rplus_lt_le_0_compat; [lra|].
      apply Rmult_le_pos; [|left; apply Rdiv_lt_0_compat; lra].
      apply Rmult_le_pos; [lra|]. left. apply Rinv_0_lt_compat. apply Rmult_lt_0_compat; lra. }
    intros Z. assert (Q : lam^2 * e * penny_U3 lam G (k * 1) 0 1 / G = 0) by (unfold lam in *; lra).
    revert Q. apply Rmult_integral_contrapositive_currified; [|apply Rinv_neq_0_compat; lra].
    apply Rmult_integral_contrapositive_currified; [|lra]. apply Rmult_integral_contrapositive_currified; [|lra]. apply pow_nonzero. unfold lam. lra.
  - intros eps He. destruct (thin_limit m K G k e HK HG Hk 1 ltac:(lra) eps He) as (d & Hd & T).
    exists d. split; [exact Hd|]. intros al Ha. destruct (T al Ha) as (c11 & c33 & c13 & c44 & c66 & E & B & _).
    exists c11, c33, c13, c44, c66. split; [exact E|]. replace (K + 4/3 * G) with (K - 2/3 * G + 2 * G) by field. exact B.
Qed.
Print Assumptions C74_thin_crack_c11_refuted.

(** Non-vacuity: quartz with water; a self-consistent state and layers meeting the hypotheses. *)
Example C73_nonvacuous_rock : 0 < 45 /\ 0 < 2.25 < 37 /\ 0 < 0.3 <= 1.
Proof. lra. Qed.
(** Half of each of (8, 6) and (2, 1.5): the self-consistent moduli are (4, 3). *)
Example C73_nonvacuous_sc m : EM_SC_flex_step m (Fin (1/2)) (Fin 8) (Fin 2) (Fin 6) (Fin (3/2)) (Fin 4) (Fin 3) = Ret (Fin 4, Fin 3) /\
  0 < (8 - 2) * (6 - 3/2).
Proof.
  split; [|lra]. apply flex_fixed; try lra. unfold walpole, zK, zG. split; field.
Qed.
Example C74_nonvacuous_layers : good_layers [(1, 10, 5); (2, 20, 5); (1, 3, 5)] /\ Forall (fun x => lg x = 5) [(1, 10, 5); (2, 20, 5); (1, 3, 5)].
Proof. unfold good_layers, sumf, lv, ll, lg. cbn. repeat split; repeat (apply Forall_cons; [cbn; lra|]); try apply Forall_nil; lra. Qed.
Example C74_nonvacuous_cracks : 0 < 37 /\ 0 < 45 /\ 3 * 37 <> 2 * 45 /\ 0 <= 100 /\ 0.05 <> 0.
Proof. lra. Qed.
