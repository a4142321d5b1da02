(** * C76: what the shape of inclusions does to the effective moduli. *)
From Verif Require Import Fl M_Utils M_EM Spec Spec3 Spec7 Spec9 RealLemmas L_Lists L_EM1 L_EM8 L_Cross L_Shape P_EM2.
From Coq Require Import List.
Import ListNotations.
Open Scope R_scope.

(** An inclusion that is softer than the matrix in both moduli, or stiffer in both, acts least as a sphere and less than a
    disc of its own material: no oblate aspect ratio gives factors outside this range. *)
Theorem C76_sphere_least_disc_most :
  forall m Km Gm Ki Gi al, 0 < Km -> 0 < Gm -> 0 <= Ki -> 0 <= Gi -> 0 <= (Ki - Km) * (Gi - Gm) -> 0 < al <= 1 -> exists P Q Ps Qs,
  EM_PQ m (Fin Km) (Fin Gm) (Fin Ki) (Fin Gi) al = Ret (Fin P, Fin Q) /\
  EM_PQ m (Fin Km) (Fin Gm) (Fin Ki) (Fin Gi) 1 = Ret (Fin Ps, Fin Qs) /\
  0 < Ps <= P /\ 0 < Qs <= Q /\
  P * (Ki + zK Gi) <= Km + zK Gi /\ Q * (Gi + zG Ki Gi) <= Gm + zG Ki Gi.
Proof.
  intros m Km Gm Ki Gi al HK HG HKi HGi HO Hal. destruct (PQ_all m Km Gm Ki Gi HK HG HKi HGi al Hal) as (E & _ & P0 & Q0).
  destruct (PQ_all m Km Gm Ki Gi HK HG HKi HGi 1 ltac:(lra)) as (E1 & _ & P1 & Q1).
  destruct (PQ_shape Km Gm Ki Gi HK HG HKi HGi HO al Hal) as (B1 & B2 & B3 & B4). destruct (sph1 Km Gm Ki Gi HK HG HKi HGi) as (S1 & S2).
  exists (sphP Km Gm Ki Gi al), (sphQ Km Gm Ki Gi al), (sphP Km Gm Ki Gi 1), (sphQ Km Gm Ki Gi 1). rewrite <- S1 in B1. rewrite <- S2 in B3. repeat split; auto.
  destruct (Req_dec Gi 0) as [->|N].
  - assert (Z : zG Ki 0 = 0) by (unfold zG, Rdiv; ring). rewrite Z. lra.
  - assert (Z := zG_nonneg Ki Gi HKi HGi). apply le_div_iff in B4; lra.
Qed.
Print Assumptions C76_sphere_least_disc_most.
(** Both ends are attained: EM_PQ at 1 is the sphere, and towards aspect ratio 0 the factors tend to the disc's. *)
Theorem C76_thin_disc_limit :
  forall m Km Gm Ki Gi, 0 < Km -> 0 < Gm -> 0 <= Ki -> 0 < Gi -> exists P Q : R -> R,
  (forall al, 0 < al < 1 -> EM_PQ m (Fin Km) (Fin Gm) (Fin Ki) (Fin Gi) al = Ret (Fin (P al), Fin (Q al))) /\
  limit1_in P (fun a => 0 < a < 1) ((Km + zK Gi) / (Ki + zK Gi)) 0 /\
  limit1_in Q (fun a => 0 < a < 1) ((Gm + zG Ki Gi) / (Gi + zG Ki Gi)) 0.
Proof.
  intros m Km Gm Ki Gi HK HG HKi HGi. exists (sphP Km Gm Ki Gi), (sphQ Km Gm Ki Gi). split; [|apply disc_limit; auto].
  intros al Hal. apply PQ_all; auto; lra.
Qed.
Print Assumptions C76_thin_disc_limit.
(** With contrasts of opposite sign the bulk factor is largest for the sphere. *)
Theorem C76_opposite_contrast :
  forall m Km Gm Ki Gi al, 0 < Km -> 0 < Gm -> 0 <= Ki -> 0 <= Gi -> (Ki - Km) * (Gi - Gm) <= 0 -> 0 < al <= 1 -> exists P Q Ps Qs,
  EM_PQ m (Fin Km) (Fin Gm) (Fin Ki) (Fin Gi) al = Ret (Fin P, Fin Q) /\
  EM_PQ m (Fin Km) (Fin Gm) (Fin Ki) (Fin Gi) 1 = Ret (Fin Ps, Fin Qs) /\ 0 < P <= Ps.
Proof.
  intros m Km Gm Ki Gi al HK HG HKi HGi HO Hal. destruct (PQ_all m Km Gm Ki Gi HK HG HKi HGi al Hal) as (E & _ & P0 & Q0).
  destruct (PQ_all m Km Gm Ki Gi HK HG HKi HGi 1 ltac:(lra)) as (E1 & _).
  do 4 eexists. split; [exact E|]. split; [exact E1|]. split; [exact P0|]. apply opposite; auto.
Qed.
Print Assumptions C76_opposite_contrast.

(** ** The differential scheme *)
(** Every exact solution of the equations integrated by Berryman_DEM, for every aspect ratio, is within the
    Hashin-Shtrikman bounds of host and inclusion at each volume fraction. *)
Theorem C76_dem_within_hs :
  forall m Km Gm Ki Gi al (K G K' G' : R -> R), 0 < Ki -> 0 < Gi -> 0 < al <= 1 -> 0 < (Km - Ki) * (Gm - Gi) -> K 0 = Km -> G 0 = Gm ->
  (forall t, 0 <= t < 1 -> 0 < K t /\ 0 < G t /\ derivable_pt_lim K t (K' t) /\ derivable_pt_lim G t (G' t) /\
    EM_DEM m (Fin (K t)) (Fin (G t)) (Fin t) (Fin Gi, Fin Ki, al) = Ret (Fin (K' t), Fin (G' t))) ->
  forall t, 0 <= t < 1 -> exists Ka Ga Kb Gb,
    EM_HS m (Fin (1 - t)) (Fin Km) (Fin Ki) (Fin Gm) (Fin Gi) "upper" = Ret (Fin Ka, Fin Ga) /\
    EM_HS m (Fin (1 - t)) (Fin Km) (Fin Ki) (Fin Gm) (Fin Gi) "lower" = Ret (Fin Kb, Fin Gb) /\
    Rmin Ka Kb <= K t <= Rmax Ka Kb /\ Rmin Ga Gb <= G t <= Rmax Ga Gb.
Proof.
  intros m Km Gm Ki Gi al K G K' G' HKi HGi Hal HO <- <- Ho t Ht. destruct (Ho 0 ltac:(lra)) as (HK & HG & _).
  assert (C : Ki < K 0 /\ Gi < G 0 \/ K 0 < Ki /\ G 0 < Gi).
  { destruct (Rtotal_order (K 0) Ki) as [A|[A|A]], (Rtotal_order (G 0) Gi) as [B|[B|B]]; try nra; auto. }
  assert (Hord : Ki <= K 0 /\ Gi <= G 0 \/ K 0 <= Ki /\ G 0 <= Gi) by lra.
  destruct (HS_walpole m (1 - t) (K 0) Ki (G 0) Gi) as (U & L); try lra; try (destruct C; lra).
  specialize (L "lower"%string ltac:(discriminate)). do 4 eexists. split; [exact U|]. split; [exact L|].
  assert (P1 := zG_pos _ _ HK HG). assert (P2 := zG_pos Ki Gi HKi HGi).
  destruct C as [(C1 & C2)|(C1 & C2)].
  - assert (Z : zG Ki Gi <= zG (K 0) (G 0)) by (apply zG_mono; lra). assert (Z' : zK Gi <= zK (G 0)) by (unfold zK; lra). assert (0 < zK Gi) by (unfold zK; lra).
    split; split.
    + apply Rle_trans with (1 := Rmin_r _ _). eapply dem_K_lower; eauto; lra.
    + apply Rle_trans with (2 := Rmax_l _ _). eapply dem_K_upper; eauto; lra.
    + apply Rle_trans with (1 := Rmin_r _ _). eapply dem_G_lower; eauto; lra.
    + apply Rle_trans with (2 := Rmax_l _ _). eapply dem_G_upper; eauto; lra.
  - assert (Z : zG (K 0) (G 0) <= zG Ki Gi) by (apply zG_mono; lra). assert (Z' : zK (G 0) <= zK Gi) by (unfold zK; lra). assert (0 < zK (G 0)) by (unfold zK; lra).
    split; split.
    + apply Rle_trans with (1 := Rmin_l _ _). eapply dem_K_lower; eauto; lra.
    + apply Rle_trans with (2 := Rmax_r _ _). eapply dem_K_upper; eauto; lra.
    + apply Rle_trans with (1 := Rmin_l _ _). eapply dem_G_lower; eauto; lra.
    + apply Rle_trans with (2 := Rmax_r _ _). eapply dem_G_upper; eauto; lra.
Qed.
Print Assumptions C76_dem_within_hs.
(** Pores, empty or filled with a fluid: the solution is below the stiff bound, and with a fluid the bulk modulus is above
    the Reuss average. *)
Theorem C76_dem_pores :
  forall m Km Gm Kf al (K G K' G' : R -> R), 0 <= Kf < Km -> 0 < al <= 1 -> K 0 = Km -> G 0 = Gm ->
  (forall t, 0 <= t < 1 -> 0 < K t /\ 0 < G t /\ derivable_pt_lim K t (K' t) /\ derivable_pt_lim G t (G' t) /\
    EM_DEM m (Fin (K t)) (Fin (G t)) (Fin t) (Fin 0, Fin Kf, al) = Ret (Fin (K' t), Fin (G' t))) ->
  forall t, 0 <= t < 1 -> exists Ka Ga,
    EM_HS m (Fin (1 - t)) (Fin Km) (Fin Kf) (Fin Gm) (Fin 0) "upper" = Ret (Fin Ka, Fin Ga) /\ K t <= Ka /\ G t <= Ga /\
    (0 < Kf -> 1 / ((1 - t) / Km + t / Kf) <= K t).
Proof.
  intros m Km Gm Kf al K G K' G' HKf Hal <- <- Ho t Ht. destruct (Ho 0 ltac:(lra)) as (HK & HG & _).
  assert (Hord : Kf <= K 0 /\ 0 <= G 0 \/ K 0 <= Kf /\ G 0 <= 0) by lra.
  do 2 eexists. split; [apply HS_upper0; lra|]. assert (P1 := zG_pos _ _ HK HG). assert (Z : zG Kf 0 = 0) by (unfold zG, Rdiv; ring).
  split; [|split].
  - eapply dem_K_upper; eauto; try lra. unfold zK. lra.
  - eapply dem_G_upper; eauto; lra.
  - intros H. replace (1 / ((1 - t) / K 0 + t / Kf)) with (walpole 0 (1 - t) (K 0) Kf).
    + eapply dem_K_lower; eauto; unfold zK; lra.
    + rewrite walpole_z0. unfold Rdiv at 3. rewrite Rmult_1_l. replace (1 - (1 - t)) with t by ring. reflexivity.
Qed.
Print Assumptions C76_dem_pores.
(** Host and inclusion with one shear modulus: whatever the aspect ratio the solution is Hill's exact modulus. *)
Theorem C76_dem_equal_shear_is_hill :
  forall m Km Ki G0 al (K G K' G' : R -> R), 0 < Ki -> 0 < al <= 1 -> K 0 = Km -> G 0 = G0 ->
  (forall t, 0 <= t < 1 -> 0 < K t /\ 0 < G t /\ derivable_pt_lim K t (K' t) /\ derivable_pt_lim G t (G' t) /\
    EM_DEM m (Fin (K t)) (Fin (G t)) (Fin t) (Fin G0, Fin Ki, al) = Ret (Fin (K' t), Fin (G' t))) ->
  forall t, 0 <= t < 1 -> is_hill Km Ki G0 (1 - t) (K t) /\ G t = G0.
Proof.
  intros m Km Ki G0 al K G K' G' HKi Hal <- E0 Ho t Ht. destruct (Ho 0 ltac:(lra)) as (HK & HG & _). rewrite E0 in HG.
  assert (Hord : Ki <= K 0 /\ G0 <= G 0 \/ K 0 <= Ki /\ G 0 <= G0) by (rewrite E0; lra).
  assert (0 < zK G0) by (unfold zK; lra).
  assert (U : K t <= walpole (zK G0) (1 - t) (K 0) Ki) by (eapply dem_K_upper; eauto; rewrite ?E0; lra).
  assert (L : walpole (zK G0) (1 - t) (K 0) Ki <= K t) by (eapply dem_K_lower; eauto; rewrite ?E0; lra).
  assert (E : K t = walpole (zK G0) (1 - t) (K 0) Ki) by lra.
  split.
  - unfold is_hill. split; [apply Ho; auto|]. rewrite E. unfold walpole. change (4/3 * G0) with (zK G0).
    replace (/ ((1 - t) / (K 0 + zK G0) + (1 - (1 - t)) / (Ki + zK G0)) - zK G0 + zK G0) with (/ ((1 - t) / (K 0 + zK G0) + (1 - (1 - t)) / (Ki + zK G0))) by ring.
    unfold Rdiv at 1. rewrite Rmult_1_l, Rinv_inv. reflexivity.
  - assert (B := dem_between m Ki G0 al K G K' G' ltac:(lra) ltac:(lra) Hal Ho t Ht). rewrite E0 in B. unfold Rmin, Rmax in B. destruct B as (_ & B). destruct (Rle_dec G0 G0); lra.
Qed.
Print Assumptions C76_dem_equal_shear_is_hill.
(** Empty spheres drive Poisson's ratio towards 1/5; a host that has this value keeps it, and its moduli fall with the
    square of the solid fraction. *)
Theorem C76_dry_spheres_poisson :
  forall m (K G K' G' : R -> R),
  (forall t, 0 <= t < 1 -> 0 < K t /\ 0 < G t /\ derivable_pt_lim K t (K' t) /\ derivable_pt_lim G t (G' t) /\
    EM_DEM m (Fin (K t)) (Fin (G t)) (Fin t) (Fin 0, Fin 0, 1) = Ret (Fin (K' t), Fin (G' t))) ->
  forall t, 0 <= t < 1 ->
  Rmin (poisson (K 0) (G 0)) (1/5) <= poisson (K t) (G t) <= Rmax (poisson (K 0) (G 0)) (1/5) /\
  (poisson (K 0) (G 0) = 1/5 -> K t = K 0 * (1 - t)^2 /\ G t = G 0 * (1 - t)^2).
Proof.
  intros m K G K' G' Ho t Ht. split; [eapply poisson_drift; eauto|]. intros E. eapply dry_square; eauto.
  destruct (Ho 0 ltac:(lra)) as (A & B & _). unfold poisson in E. apply (f_equal (fun v => v * (6 * K 0 + 2 * G 0))) in E. unfold Rdiv at 1 in E. rewrite Rmult_assoc, Rinv_l in E by lra. lra.
Qed.
Print Assumptions C76_dry_spheres_poisson.
(** The hypotheses are met by exact solutions. *)
Example C76_dem_nonvacuous m : exists K G K' G' : R -> R, K 0 = 16/3 /\ G 0 = 4 /\ forall t, 0 <= t < 1 ->
  0 < K t /\ 0 < G t /\ derivable_pt_lim K t (K' t) /\ derivable_pt_lim G t (G' t) /\
  EM_DEM m (Fin (K t)) (Fin (G t)) (Fin t) (Fin 1, Fin (4/3), 1) = Ret (Fin (K' t), Fin (G' t)).
Proof.
  exists (fun t => 4/3 * wit_x t ^ 2), (fun t => wit_x t ^ 2), (fun t => 4/3 * (2 * wit_x t * wit_dx t)), (fun t => 2 * wit_x t * wit_dx t).
  rewrite wit_0. split; [field|]. split; [ring|]. intros t Ht. apply wit_dem, Ht.
Qed.
Example C76_dry_nonvacuous m : exists K G K' G' : R -> R, K 0 = 4 /\ G 0 = 3 /\ forall t, 0 <= t < 1 ->
  0 < K t /\ 0 < G t /\ derivable_pt_lim K t (K' t) /\ derivable_pt_lim G t (G' t) /\
  EM_DEM m (Fin (K t)) (Fin (G t)) (Fin t) (Fin 0, Fin 0, 1) = Ret (Fin (K' t), Fin (G' t)).
Proof.
  exists (fun t => 4 * (1 - t)^2), (fun t => 3 * (1 - t)^2), (fun t => - 8 * (1 - t)), (fun t => - 6 * (1 - t)).
  split; [ring|]. split; [ring|]. intros t Ht. apply dry_wit, Ht.
Qed.

(** ** The self-consistent scheme *)
(** A positive root of the residual of Berryman_func, for any number of phases of any oblate shapes, each of which is softer
    than the root in both moduli or stiffer in both, is within the Hashin-Shtrikman-Walpole bounds. *)
Theorem C76_self_consistent_within_bounds :
  forall Ks Gs Kl Kh Gl Gh (L : list phase) al', 0 < Ks -> 0 < Gs -> Forall passive L -> sumf ph_x L = 1 ->
  EM_Berryman_func DFloat (Fin Ks) (Fin Gs) (map (fun p => Fin (ph_K p)) L) (map (fun p => Fin (ph_G p)) L) (map (fun p => Fin (ph_x p)) L) (map ph_al L)
  = Ret ((Fin 0, Fin 0), al') ->
  0 < Kl -> 0 < Gl -> Forall (fun p => 0 <= (ph_K p - Ks) * (ph_G p - Gs) /\ Kl <= ph_K p <= Kh /\ Gl <= ph_G p <= Gh) L ->
  let bound z (mod_ : phase -> R) := 1 / sumf (fun p => ph_x p / (mod_ p + z)) L - z in
  bound (zK Gl) ph_K <= Ks <= bound (zK Gh) ph_K /\ bound (zG Kl Gl) ph_G <= Gs <= bound (zG Kh Gh) ph_G.
Proof.
  intros Ks Gs Kl Kh Gl Gh L al' HK HG HL Hs E Hl Hg HO bound.
  assert (Bt := C17_oblate_root_between_phases Ks Gs L al' HK HG HL Hs E). rewrite (Berryman_phases Ks Gs HK HG L HL) in E. injection E as E1 E2 _.
  assert (B : Kl <= Ks <= Kh /\ Gl <= Gs <= Gh).
  { destruct Bt as ((A1 & A2) & (A3 & A4)). unfold above_some, below_some in *. rewrite Exists_exists in *. rewrite Forall_forall in HO.
    destruct A1 as (y1 & I1 & J1), A2 as (y2 & I2 & J2), A3 as (y3 & I3 & J3), A4 as (y4 & I4 & J4). rewrite in_map_iff in *.
    destruct I1 as (p1 & <- & I1), I2 as (p2 & <- & I2), I3 as (p3 & <- & I3), I4 as (p4 & <- & I4).
    destruct (HO p1 I1) as (_ & ? & ?), (HO p2 I2) as (_ & ? & ?), (HO p3 I3) as (_ & ? & ?), (HO p4 I4) as (_ & ? & ?). lra. }
  unfold bound. unfold Rdiv at 1 3 5 7. rewrite !Rmult_1_l. apply (root_bounds Ks Gs Kl Kh Gl Gh L); auto; apply B.
Qed.
Print Assumptions C76_self_consistent_within_bounds.
(** For two phases the condition on the root follows from the phases alone, and the bounds are EM.HS's. *)
Theorem C76_two_phases_within_hs :
  forall m x Km Gm Ki Gi a1 a2 Ks Gs al', 0 < Ks -> 0 < Gs -> 0 < Km -> 0 < Gm -> 0 < Ki -> 0 < Gi -> 0 < (Km - Ki) * (Gm - Gi) ->
  0 <= x <= 1 -> 0 < a1 <= 1 -> 0 < a2 <= 1 ->
  EM_Berryman_func DFloat (Fin Ks) (Fin Gs) [Fin Km; Fin Ki] [Fin Gm; Fin Gi] [Fin x; Fin (1 - x)] [a1; a2] = Ret ((Fin 0, Fin 0), al') ->
  exists Ka Ga Kb Gb,
    EM_HS m (Fin x) (Fin Km) (Fin Ki) (Fin Gm) (Fin Gi) "upper" = Ret (Fin Ka, Fin Ga) /\
    EM_HS m (Fin x) (Fin Km) (Fin Ki) (Fin Gm) (Fin Gi) "lower" = Ret (Fin Kb, Fin Gb) /\
    Rmin Ka Kb <= Ks <= Rmax Ka Kb /\ Rmin Ga Gb <= Gs <= Rmax Ga Gb.
Proof.
  intros m x Km Gm Ki Gi a1 a2 Ks Gs al' HK HG HKm HGm HKi HGi HO Hx Ha1 Ha2 E.
  assert (C : Ki < Km /\ Gi < Gm \/ Km < Ki /\ Gm < Gi).
  { destruct (Rtotal_order Km Ki) as [A|[A|A]], (Rtotal_order Gm Gi) as [B|[B|B]]; try nra; auto. }
  set (L := [Phase x Km Gm a1; Phase (1 - x) Ki Gi a2]).
  assert (HL : Forall passive L) by (unfold L, passive; repeat apply List.Forall_cons; cbn; try lra; apply List.Forall_nil).
  assert (Hs : sumf ph_x L = 1) by (unfold L, sumf; cbn; lra).
  assert (Bt := C17_oblate_root_between_phases Ks Gs L al' HK HG HL Hs E).
  assert (B : (Km <= Ks <= Ki \/ Ki <= Ks <= Km) /\ (Gm <= Gs <= Gi \/ Gi <= Gs <= Gm)).
  { destruct Bt as ((A1 & A2) & (A3 & A4)). unfold above_some, below_some, L in *. cbn [map ph_K ph_G] in *.
    rewrite !Exists_cons, !Exists_nil in *. lra. }
  assert (WK : forall z, 1 / sumf (fun p => ph_x p / (ph_K p + z)) L - z = walpole z x Km Ki).
  { intros z. unfold L, sumf, walpole. cbn. unfold Rdiv at 1. rewrite Rmult_1_l, Rplus_0_r. reflexivity. }
  assert (WG : forall z, 1 / sumf (fun p => ph_x p / (ph_G p + z)) L - z = walpole z x Gm Gi).
  { intros z. unfold L, sumf, walpole. cbn. unfold Rdiv at 1. rewrite Rmult_1_l, Rplus_0_r. reflexivity. }
  destruct (HS_walpole m x Km Ki Gm Gi) as (U & Lo); try lra; try (destruct C; lra).
  specialize (Lo "lower"%string ltac:(discriminate)). do 4 eexists. split; [exact U|]. split; [exact Lo|].
  assert (O : 0 <= (Km - Ks) * (Gm - Gs) /\ 0 <= (Ki - Ks) * (Gi - Gs)).
  { destruct C as [(C1 & C2)|(C1 & C2)], B as ([B1|B1] & [B2|B2]); try lra; split; nra. }
  destruct C as [(C1 & C2)|(C1 & C2)].
  - destruct (C76_self_consistent_within_bounds Ks Gs Ki Km Gi Gm L al' HK HG HL Hs E HKi HGi) as ((X1 & X2) & (X3 & X4)).
    { unfold L; repeat apply List.Forall_cons; cbn; try (split; [apply O|lra]); apply List.Forall_nil. }
    rewrite WK in X1, X2. rewrite WG in X3, X4. split; split.
    + apply Rle_trans with (1 := Rmin_r _ _), X1.
    + apply Rle_trans with (2 := Rmax_l _ _), X2.
    + apply Rle_trans with (1 := Rmin_r _ _), X3.
    + apply Rle_trans with (2 := Rmax_l _ _), X4.
  - destruct (C76_self_consistent_within_bounds Ks Gs Km Ki Gm Gi L al' HK HG HL Hs E HKm HGm) as ((X1 & X2) & (X3 & X4)).
    { unfold L; repeat apply List.Forall_cons; cbn; try (split; [apply O|lra]); apply List.Forall_nil. }
    rewrite WK in X1, X2. rewrite WG in X3, X4. split; split.
    + apply Rle_trans with (1 := Rmin_l _ _), X1.
    + apply Rle_trans with (2 := Rmax_r _ _), X2.
    + apply Rle_trans with (1 := Rmin_l _ _), X3.
    + apply Rle_trans with (2 := Rmax_r _ _), X4.
Qed.
Print Assumptions C76_two_phases_within_hs.
(** Flat soft inclusions and thicker stiff ones with a root: (4, 3) is the effective medium of a soft phase (2, 1) and some
    phase stiffer in both moduli. *)
Example C76_root_nonvacuous : exists x Km Gm al', 0 < x < 1 /\ 4 < Km /\ 3 < Gm /\
  EM_Berryman_func DFloat (Fin 4) (Fin 3) [Fin Km; Fin 2] [Fin Gm; Fin 1] [Fin x; Fin (1 - x)] [0.5; 0.1] = Ret ((Fin 0, Fin 0), al').
Proof.
  assert (A1 : 0 < 0.5 <= 1) by lra. assert (A2 : 0 < 0.1 <= 1) by lra.
  destruct (PQ_all NumPy 4 3 2 1 ltac:(lra) ltac:(lra) ltac:(lra) ltac:(lra) 0.1 A2) as (_ & _ & P2 & Q2).
  set (p2 := sphP 4 3 2 1 0.1) in *. set (q2 := sphQ 4 3 2 1 0.1) in *.
  destruct (root_path 4 3 0.5 (3 * p2) (4 * q2)) as (s & Hs & E); try lra.
  destruct (PQ_all NumPy 4 3 (4 * (2 - s)) (3 * (1 + s)) ltac:(lra) ltac:(lra) ltac:(lra) ltac:(lra) 0.5 A1) as (_ & _ & P1 & Q1).
  set (p1 := sphP 4 3 (4 * (2 - s)) (3 * (1 + s)) 0.5) in *. set (q1 := sphQ 4 3 (4 * (2 - s)) (3 * (1 + s)) 0.5) in *.
  set (v := 4 * (1 - s) * p1). assert (V : 0 < v) by (apply Rmult_lt_0_compat; lra).
  exists (2 * p2 / (2 * p2 + v)), (4 * (2 - s)), (3 * (1 + s)). eexists.
  split; [split; [apply Rdiv_lt_0_compat; lra|apply div_lt_iff; lra]|]. split; [lra|]. split; [lra|].
  set (x := 2 * p2 / (2 * p2 + v)).
  set (L := [Phase x (4 * (2 - s)) (3 * (1 + s)) 0.5; Phase (1 - x) 2 1 0.1]).
  assert (X : 0 <= x <= 1). { unfold x. split; [apply Rlt_le, Rdiv_lt_0_compat; lra|apply div_le_iff; lra]. }
  assert (HL : Forall passive L) by (unfold L, passive; repeat apply List.Forall_cons; cbn -[Rdiv]; try lra; apply List.Forall_nil).
  assert (R := Berryman_phases 4 3 ltac:(lra) ltac:(lra) L HL).
  assert (U1 : al_used 0.5 = 0.5) by (unfold al_used; destruct (Req_EM_T 0.5 1); lra). assert (U2 : al_used 0.1 = 0.1) by (unfold al_used; destruct (Req_EM_T 0.1 1); lra).
  cbn [L map ph_K ph_G ph_x ph_al] in R. rewrite R. unfold L. rewrite !sumf_cons. unfold sumf; cbn [map fold_right].
  rewrite !(fun a b c d => proj1 (ph_sph 4 3 (Phase a b c d))), !(fun a b c d => proj2 (ph_sph 4 3 (Phase a b c d))). cbn [ph_K ph_G ph_x ph_al]. rewrite U1, U2. fold p1 q1 p2 q2.
  assert (E1 : x * (4 * (2 - s) - 4) * p1 + ((1 - x) * (2 - 4) * p2 + 0) = 0) by (unfold x, v; field; unfold v in V; lra).
  assert (E2 : x * (3 * (1 + s) - 3) * q1 + ((1 - x) * (1 - 3) * q2 + 0) = 0).
  { replace (x * (3 * (1 + s) - 3) * q1 + ((1 - x) * (1 - 3) * q2 + 0)) with (2 / (2 * p2 + v) * (3 * p2 * (s * q1) - v * q2)) by (unfold x; field; lra). rewrite E. unfold v. ring. }
  change (sumR []) with 0. rewrite E1, E2. reflexivity.
Qed.
