(** * Property theorems about EM.py (C07-C24, C65). *)
From Verif Require Import Fl M_Utils M_EM Spec L_EM1 L_EM2 L_EM3 L_EM4 L_EM5 L_EM6 L_EM7.
From Coq Require Import Permutation.
Open Scope R_scope.

(** ** C07: Voigt-Reuss-Hill *)
Theorem C07_vrh_means_and_bounds :
  forall ws Ms : list R, length ws = length Ms -> fractions ws -> Forall (Rlt 0) Ms ->
  exists v r h, EM_VRH (map Fin ws) (map Fin Ms) = Ret (Fin v, Fin r, Fin h) /\
    v = wsum ws Ms /\ r = / wsum ws (map Rinv Ms) /\ h = (v + r) / 2 /\
    0 < r /\ r <= h <= v /\ between_some Ms v /\ between_some Ms r.
Proof. exact VRH_main. Qed.
Print Assumptions C07_vrh_means_and_bounds.
Theorem C07_vrh_order_of_phases_irrelevant :
  forall L L' : list (R * R), Permutation L L' ->
  Forall (fun p => 0 <= fst p) L -> 0 < sumf fst L -> Forall (fun p => 0 < snd p) L ->
  EM_VRH (map (fun p => Fin (fst p)) L) (map (fun p => Fin (snd p)) L) =
  EM_VRH (map (fun p => Fin (fst p)) L') (map (fun p => Fin (snd p)) L').
Proof. exact VRH_perm. Qed.
Print Assumptions C07_vrh_order_of_phases_irrelevant.
Theorem C07_vrh_monotone_in_moduli :
  forall L : list (R * R * R),
  Forall (fun p => 0 <= fst (fst p)) L -> sumf (fun p => fst (fst p)) L = 1 ->
  Forall (fun p => 0 < snd (fst p) <= snd p) L ->
  exists v r h v' r' h',
    EM_VRH (map (fun p => Fin (fst (fst p))) L) (map (fun p => Fin (snd (fst p))) L) = Ret (Fin v, Fin r, Fin h) /\
    EM_VRH (map (fun p => Fin (fst (fst p))) L) (map (fun p => Fin (snd p)) L) = Ret (Fin v', Fin r', Fin h') /\
    v <= v' /\ r <= r' /\ h <= h'.
Proof. exact VRH_mono. Qed.
Print Assumptions C07_vrh_monotone_in_moduli.
Theorem C07_vrh_single_material :
  forall ws M, fractions ws -> 0 < M ->
  EM_VRH (map Fin ws) (map (fun _ => Fin M) ws) = Ret (Fin M, Fin M, Fin M).
Proof. exact VRH_equal. Qed.
Print Assumptions C07_vrh_single_material.
Theorem C07_vrh_length_mismatch :
  forall ws Ms : list fl, length ws <> length Ms -> EM_VRH ws Ms = Raise ValueError.
Proof. exact VRH_len. Qed.
Print Assumptions C07_vrh_length_mismatch.
Example C07_nonvacuous : length [0.6; 0.4] = length [37; 21] /\ fractions [0.6; 0.4] /\ Forall (Rlt 0) [37; 21].
Proof. repeat split; cbn; try (repeat constructor; dec; lra). Qed.

(** ** C08: a phase of zero modulus *)
Theorem C08_vrh_zero_modulus :
  forall (L1 L2 : list (R * R)) w,
  Forall (fun p => 0 < snd p) L1 -> Forall (fun p => 0 < snd p) L2 ->
  let L := L1 ++ (w, 0) :: L2 in
  let v := sumf (fun p => fst p * snd p) L in
  (0 < w -> EM_VRH (map (fun p => Fin (fst p)) L) (map (fun p => Fin (snd p)) L) = Ret (Fin v, Fin 0, Fin (v/2))) /\
  (w = 0 -> EM_VRH (map (fun p => Fin (fst p)) L) (map (fun p => Fin (snd p)) L) = Ret (Fin v, NaN, NaN)).
Proof. exact VRH_zero. Qed.
Print Assumptions C08_vrh_zero_modulus.
(** So "an absent phase does not matter" fails for the Reuss and Hill averages. *)
Theorem C08_absent_phase_ignored_refuted :
  exists ws Ms ws' Ms', length ws = length Ms /\ length ws' = length Ms' /\
    (exists w M, ws' = w ++ [0] /\ Ms' = M ++ [0] /\ ws = w /\ Ms = M) /\ fractions ws /\ Forall (Rlt 0) Ms /\
    exists v r h v', EM_VRH (map Fin ws) (map Fin Ms) = Ret (Fin v, Fin r, Fin h) /\
      EM_VRH (map Fin ws') (map Fin Ms') = Ret (Fin v', NaN, NaN).
Proof.
  exists [1], [37], [1; 0], [37; 0]. split; [reflexivity|]. split; [reflexivity|].
  split; [exists [1], [37]; auto|]. 
  assert (F : fractions [1]) by (split; [repeat constructor; lra | cbn; lra]).
  assert (P : Forall (Rlt 0) [37]) by (repeat constructor; lra).
  split; [exact F|]. split; [exact P|].
  destruct (VRH_main [1] [37] eq_refl F P) as (v & r & h & E & _).
  destruct (VRH_zero [(1, 37)] [] 0 ltac:(repeat constructor; cbn; lra) ltac:(constructor)) as (_ & E2).
  exists v, r, h. eexists. split; [exact E|]. exact (E2 eq_refl).
Qed.
Print Assumptions C08_absent_phase_ignored_refuted.

(** ** C09: critical porosity *)
Theorem C09_cripor :
  forall m K0 G0 phic, 0 < phic -> 0 < K0 -> 0 < G0 ->
  exists Kd Gd : R -> R,
   (forall phi, EM_cripor m (Fin K0) (Fin G0) (Fin phi) (Fin phic) = Ret (Fin (Kd phi), Fin (Gd phi))) /\
   Kd 0 = K0 /\ Gd 0 = G0 /\ Kd phic = 0 /\ Gd phic = 0 /\
   (forall p q, p < q -> Kd q < Kd p /\ Gd q < Gd p) /\
   (forall p q t, Kd ((1 - t) * p + t * q) = (1 - t) * Kd p + t * Kd q) /\
   (forall p, Kd p * G0 = Gd p * K0) /\
   (forall phi, phic < phi -> Kd phi < 0 /\ Gd phi < 0).
Proof. exact cripor_facts. Qed.
Print Assumptions C09_cripor.
Theorem C09_cripor_zero_critical_porosity :
  forall K0 G0 phi, EM_cripor PyFloat (Fin K0) (Fin G0) (Fin phi) (Fin 0) = Raise ZeroDivisionError.
Proof. exact cripor_zero. Qed.
Print Assumptions C09_cripor_zero_critical_porosity.
Theorem C09_cripor_reuss :
  forall M0 Mf phic, 0 < M0 -> 0 < Mf -> 0 <= phic <= 1 ->
  exists r, EM_cripor_reuss (Fin M0) (Fin Mf) (Fin phic) false = Ret (Fin r) /\
    EM_cripor_reuss (Fin M0) (Fin Mf) (Fin phic) true = Ret (Fin ((1 - phic) * M0 + phic * Mf)) /\
    1 / r = (1 - phic) / M0 + phic / Mf /\ Rmin M0 Mf <= r <= Rmax M0 Mf.
Proof. exact cripor_reuss_spec. Qed.
Print Assumptions C09_cripor_reuss.
Example C09_nonvacuous : 0 < 0.4 /\ 0 < 37 /\ 0 < 44 /\ 0 <= 0.4 <= 1.
Proof. dec; lra. Qed.

(** ** C10, C11: Hashin-Shtrikman *)
Theorem C10_hs_is_walpole :
  forall m f K1 K2 G1 G2, 0 < K1 -> 0 < K2 -> 0 < G1 -> 0 < G2 -> 0 <= f <= 1 -> K1 <> K2 -> G1 <> G2 ->
  EM_HS m (Fin f) (Fin K1) (Fin K2) (Fin G1) (Fin G2) "upper" =
    Ret (Fin (walpole (zK G1) f K1 K2), Fin (walpole (zG K1 G1) f G1 G2)) /\
  forall bound, bound <> "upper"%string ->
  EM_HS m (Fin f) (Fin K1) (Fin K2) (Fin G1) (Fin G2) bound =
    Ret (Fin (walpole (zK G2) f K1 K2), Fin (walpole (zG K2 G2) f G1 G2)).
Proof. exact HS_walpole. Qed.
Print Assumptions C10_hs_is_walpole.
Theorem C10_hs_reuss_lower_upper_voigt :
  forall m f K1 K2 G1 G2, 0 < K2 -> K2 < K1 -> 0 < G2 -> G2 < G1 -> 0 <= f <= 1 ->
  exists Ku Gu Kl Gl,
    EM_HS m (Fin f) (Fin K1) (Fin K2) (Fin G1) (Fin G2) "upper" = Ret (Fin Ku, Fin Gu) /\
    EM_HS m (Fin f) (Fin K1) (Fin K2) (Fin G1) (Fin G2) "lower" = Ret (Fin Kl, Fin Gl) /\
    / (f / K1 + (1 - f) / K2) <= Kl <= Ku /\ Ku <= f * K1 + (1 - f) * K2 /\
    / (f / G1 + (1 - f) / G2) <= Gl <= Gu /\ Gu <= f * G1 + (1 - f) * G2.
Proof. exact HS_order. Qed.
Print Assumptions C10_hs_reuss_lower_upper_voigt.
Theorem C10_hs_pure_phases :
  forall m K1 K2 G1 G2 bound, 0 < K1 -> 0 < K2 -> 0 < G1 -> 0 < G2 -> K1 <> K2 -> G1 <> G2 ->
  EM_HS m (Fin 1) (Fin K1) (Fin K2) (Fin G1) (Fin G2) bound = Ret (Fin K1, Fin G1) /\
  EM_HS m (Fin 0) (Fin K1) (Fin K2) (Fin G1) (Fin G2) bound = Ret (Fin K2, Fin G2).
Proof. exact HS_ends. Qed.
Print Assumptions C10_hs_pure_phases.
Theorem C10_hs_swap_phases_and_bound :
  forall m f K1 K2 G1 G2, 0 < K1 -> 0 < K2 -> 0 < G1 -> 0 < G2 -> 0 <= f <= 1 -> K1 <> K2 -> G1 <> G2 ->
  EM_HS m (Fin f) (Fin K1) (Fin K2) (Fin G1) (Fin G2) "upper" =
  EM_HS m (Fin (1 - f)) (Fin K2) (Fin K1) (Fin G2) (Fin G1) "lower".
Proof. exact HS_swap. Qed.
Print Assumptions C10_hs_swap_phases_and_bound.
Theorem C10_hs_monotone_in_fraction :
  forall m f g K1 K2 G1 G2 bound, 0 < K2 -> K2 < K1 -> 0 < G2 -> G2 < G1 -> 0 <= f -> f <= g -> g <= 1 ->
  exists Kf Gf Kg Gg,
    EM_HS m (Fin f) (Fin K1) (Fin K2) (Fin G1) (Fin G2) bound = Ret (Fin Kf, Fin Gf) /\
    EM_HS m (Fin g) (Fin K1) (Fin K2) (Fin G1) (Fin G2) bound = Ret (Fin Kg, Fin Gg) /\
    Kf <= Kg /\ Gf <= Gg.
Proof. exact HS_mono_f. Qed.
Print Assumptions C10_hs_monotone_in_fraction.
Example C10_nonvacuous : 0 < 21 /\ 21 < 37 /\ 0 < 7 /\ 7 < 44 /\ 0 <= 0.3 <= 1.
Proof. dec; lra. Qed.
Theorem C11_hs_equal_bulk_python_raises :
  forall f K G G2 bound,
  EM_HS PyFloat (Fin f) (Fin K) (Fin K) (Fin G) (Fin G2) bound = Raise ZeroDivisionError.
Proof. exact HS_equal_py. Qed.
Print Assumptions C11_hs_equal_bulk_python_raises.
Theorem C11_hs_equal_phases_numpy :
  forall f K G bound, 0 < K -> 0 < G ->
  EM_HS NumPy (Fin f) (Fin K) (Fin K) (Fin G) (Fin G) bound = Ret (Fin K, Fin G).
Proof. exact HS_equal_np. Qed.
Print Assumptions C11_hs_equal_phases_numpy.
(** Fluid as phase 2: the lower bound is Reuss (isostress), only with NumPy operands. *)
Theorem C11_hs_fluid_lower_bound :
  forall f K1 K2 G1, 0 < K1 -> 0 < K2 -> 0 < G1 -> K1 <> K2 -> 0 <= f < 1 ->
  EM_HS NumPy (Fin f) (Fin K1) (Fin K2) (Fin G1) (Fin 0) "lower" =
  Ret (Fin (/ (f / K1 + (1 - f) / K2)), Fin 0) /\
  EM_HS PyFloat (Fin f) (Fin K1) (Fin K2) (Fin G1) (Fin 0) "lower" = Raise ZeroDivisionError.
Proof. exact HS_fluid_lower. Qed.
Print Assumptions C11_hs_fluid_lower_bound.

(** ** C12: Eshelby-Cheng *)
(** Every coefficient except C11 is the dilute Eshelby result for a fluid-filled oblate
    spheroid; C11 differs by the displayed term. *)
Theorem C12_eshelby_cheng_against_eshelby :
  forall m K G phi al Kf, 0 < K -> 0 < G -> 0 < al < 1 -> K <> Kf ->
  let nu := (3*K - 2*G) / (6*K + 2*G) in
  let lam := K - 2/3 * G in
  forall c11 c33 c13 c44 c66,
  EM_Eshelby_Cheng m (Fin K) (Fin G) (Fin phi) (Fin al) (Fin Kf) false
    = Ret (EC_array (Fin c11) (Fin c33) (Fin c13) (Fin c44) (Fin c66)) ->
  (1 - 2 * esh_shear nu al 0 2 <> 0 /\ (G - c44) * (1 - 2 * esh_shear nu al 0 2) = phi * G) /\
  (1 - 2 * esh_shear nu al 0 1 <> 0 /\ (G - c66) * (1 - 2 * esh_shear nu al 0 1) = phi * G) /\
  (exists es, eigenstrain K G Kf nu al (axis_dir 2) es) /\
  (forall es, eigenstrain K G Kf nu al (axis_dir 2) es ->
     c33 = lam + 2*G - phi * sum3 (fun j => iso_normal K G 2 j * es j) /\
     c13 = lam - phi * sum3 (fun j => iso_normal K G 0 j * es j)) /\
  (exists es, eigenstrain K G Kf nu al (axis_dir 0) es) /\
  (forall es, eigenstrain K G Kf nu al (axis_dir 0) es ->
     c13 = lam - phi * sum3 (fun j => iso_normal K G 2 j * es j) /\
     c11 = lam + 2*G - phi * sum3 (fun j => iso_normal K G 0 j * es j)
           + phi * lam * (sum3 es - (1 + esh_S nu al 2 0 - esh_S nu al 2 2))).
Proof. intros m K G phi al Kf H1 H2 H3 H4. exact (esh_main m K G phi al Kf H1 H2 H3 H4). Qed.
Print Assumptions C12_eshelby_cheng_against_eshelby.
(** C11 is not the Eshelby value. *)
Theorem C12_c11_is_eshelby_refuted :
  forall m phi, phi <> 0 ->
  let nu := (3*5 - 2*3) / (6*5 + 2*3) in
  exists c11 c33 c13 c44 c66,
    EM_Eshelby_Cheng m (Fin 5) (Fin 3) (Fin phi) (Fin (1/2)) (Fin 0) false
      = Ret (EC_array (Fin c11) (Fin c33) (Fin c13) (Fin c44) (Fin c66)) /\
    (exists es, eigenstrain 5 3 0 nu (1/2) (axis_dir 0) es) /\
    forall es, eigenstrain 5 3 0 nu (1/2) (axis_dir 0) es ->
    c11 <> 5 + 4/3*3 - phi * sum3 (fun j => iso_normal 5 3 0 j * es j).
Proof. exact esh_wit. Qed.
Print Assumptions C12_c11_is_eshelby_refuted.
Theorem C12_zero_porosity_is_background :
  forall m K G al Kf c11 c33 c13 c44 c66, 0 < K -> 0 < G -> 0 < al < 1 -> K <> Kf ->
  EM_Eshelby_Cheng m (Fin K) (Fin G) (Fin 0) (Fin al) (Fin Kf) false
    = Ret (EC_array (Fin c11) (Fin c33) (Fin c13) (Fin c44) (Fin c66)) ->
  c11 = K + 4/3*G /\ c33 = K + 4/3*G /\ c13 = K - 2/3*G /\ c44 = G /\ c66 = G.
Proof. exact esh_phi0. Qed.
Print Assumptions C12_zero_porosity_is_background.
Theorem C12_affine_in_porosity :
  forall m K G al Kf p q t a11 a33 a13 a44 a66 b11 b33 b13 b44 b66, 0 < K -> 0 < G -> 0 < al < 1 -> K <> Kf ->
  EM_Eshelby_Cheng m (Fin K) (Fin G) (Fin p) (Fin al) (Fin Kf) false
    = Ret (EC_array (Fin a11) (Fin a33) (Fin a13) (Fin a44) (Fin a66)) ->
  EM_Eshelby_Cheng m (Fin K) (Fin G) (Fin q) (Fin al) (Fin Kf) false
    = Ret (EC_array (Fin b11) (Fin b33) (Fin b13) (Fin b44) (Fin b66)) ->
  let mix x y := (1 - t) * x + t * y in
  EM_Eshelby_Cheng m (Fin K) (Fin G) (Fin (mix p q)) (Fin al) (Fin Kf) false
    = Ret (EC_array (Fin (mix a11 b11)) (Fin (mix a33 b33)) (Fin (mix a13 b13)) (Fin (mix a44 b44)) (Fin (mix a66 b66))).
Proof. exact esh_affine. Qed.
Print Assumptions C12_affine_in_porosity.
Theorem C12_matrix_flag_only_repackages :
  forall m K G phi al Kf c11 c33 c13 c44 c66,
  EM_Eshelby_Cheng m (Fin K) (Fin G) (Fin phi) (Fin al) (Fin Kf) false = Ret (EC_array c11 c33 c13 c44 c66) ->
  EM_Eshelby_Cheng m (Fin K) (Fin G) (Fin phi) (Fin al) (Fin Kf) true =
  (call! C := utils_write_VTI_matrix c11 c33 c13 c44 c66 in Ret (EC_mat C)).
Proof. exact esh_mat. Qed.
Print Assumptions C12_matrix_flag_only_repackages.

(** ** C13: aligned cracks *)
Theorem C13_hudson_expansion :
  forall m K G Ki Gi al crd, 0 < K /\ 0 < G /\ 0 <= Ki /\ 0 <= Gi /\ 0 < al ->
  let lam := K - 2/3 * G in
  let U1 := penny_U1 lam G Gi al in
  let U3 := penny_U3 lam G Ki Gi al in
  forall order axis a, (order = 1 \/ order = 2)%Z -> (axis = 3%Z /\ a = 2%nat \/ axis = 1%Z /\ a = 0%nat) ->
  exists C0 C,
    utils_write_iso m (Fin K) (Fin G) = Ret (finmat C0) /\
    EM_hudson m (Fin K) (Fin G) (Fin Ki) (Fin Gi) (Fin al) (Fin crd) order axis = Ret (finmat C) /\
    let c1 i j k l := - (crd / G) * crack_loss C0 U1 U3 (axis_dir a) i j k l in
    forall i j k l, ax4 i j k l ->
    tensor C i j k l = tensor C0 i j k l + c1 i j k l
                       + (if Z.eqb order 2 then hudson_second lam G c1 i j k l else 0).
Proof. exact hudson_spec. Qed.
Print Assumptions C13_hudson_expansion.
Theorem C13_no_cracks :
  forall m K G Ki Gi al, 0 < K /\ 0 < G /\ 0 <= Ki /\ 0 <= Gi /\ 0 < al ->
  forall order, (order = 1 \/ order = 2)%Z ->
  EM_hudson m (Fin K) (Fin G) (Fin Ki) (Fin Gi) (Fin al) (Fin 0) order 3 = utils_write_iso m (Fin K) (Fin G) /\
  EM_hudson m (Fin K) (Fin G) (Fin Ki) (Fin Gi) (Fin al) (Fin 0) order 1 = utils_write_iso m (Fin K) (Fin G).
Proof. exact hudson_zero. Qed.
Print Assumptions C13_no_cracks.
Theorem C13_cracks_only_weaken :
  forall m K G Ki Gi al, 0 < K /\ 0 < G /\ 0 <= Ki /\ 0 <= Gi /\ 0 < al ->
  forall c1 c2 axis, (axis = 3 \/ axis = 1)%Z -> c1 <= c2 -> exists C1 C2,
  EM_hudson m (Fin K) (Fin G) (Fin Ki) (Fin Gi) (Fin al) (Fin c1) 1 axis = Ret (finmat C1) /\
  EM_hudson m (Fin K) (Fin G) (Fin Ki) (Fin Gi) (Fin al) (Fin c2) 1 axis = Ret (finmat C2) /\
  forall e, energy C2 e <= energy C1 e.
Proof. exact hudson_weakens. Qed.
Print Assumptions C13_cracks_only_weaken.
Theorem C13_axis_is_a_rotation :
  forall m K G Ki Gi al crd, 0 < K /\ 0 < G /\ 0 <= Ki /\ 0 <= Gi /\ 0 < al ->
  forall order, (order = 1 \/ order = 2)%Z ->
  exists C3 C1,
    EM_hudson m (Fin K) (Fin G) (Fin Ki) (Fin Gi) (Fin al) (Fin crd) order 3 = Ret (finmat C3) /\
    EM_hudson m (Fin K) (Fin G) (Fin Ki) (Fin Gi) (Fin al) (Fin crd) order 1 = Ret (finmat C1) /\
    transversely_isotropic 2 C3 /\ transversely_isotropic 0 C1 /\ rotates_to swap13 C3 C1.
Proof. exact hudson_swap. Qed.
Print Assumptions C13_axis_is_a_rotation.
Theorem C13_unsupported_axis :
  forall m K G Ki Gi al crd, 0 < K /\ 0 < G /\ 0 <= Ki /\ 0 <= Gi /\ 0 < al ->
  forall order axis, (order = 1 \/ order = 2)%Z -> (axis <> 1)%Z -> (axis <> 3)%Z ->
  EM_hudson m (Fin K) (Fin G) (Fin Ki) (Fin Gi) (Fin al) (Fin crd) order axis = Raise UnboundLocalError.
Proof. exact hudson_bad_axis. Qed.
Print Assumptions C13_unsupported_axis.
Theorem C13_unsupported_order :
  forall m K G Ki Gi al crd, 0 < K /\ 0 < G /\ 0 <= Ki /\ 0 <= Gi /\ 0 < al ->
  forall order axis, (order <> 1)%Z -> (order <> 2)%Z ->
  EM_hudson m (Fin K) (Fin G) (Fin Ki) (Fin Gi) (Fin al) (Fin crd) order axis = Raise UnboundLocalError.
Proof. exact hudson_bad_order. Qed.
Print Assumptions C13_unsupported_order.
Example C13_nonvacuous : 0 < 37 /\ 0 < 44 /\ 0 <= 2.2 /\ 0 <= 0 /\ 0 < 0.01.
Proof. dec; lra. Qed.

(** ** C14: randomly oriented cracks *)
(** Bulk modulus: the orientation average of aligned cracks. Shear: 15 times the change. *)
Theorem C14_random_cracks_exact_discrepancy :
  forall m K G Ki Gi al crd, 0 < K /\ 0 < G /\ 0 <= Ki /\ 0 <= Gi /\ 0 < al ->
  exists C Ke Ge,
    EM_hudson m (Fin K) (Fin G) (Fin Ki) (Fin Gi) (Fin al) (Fin crd) 1 3 = Ret (finmat C) /\
    EM_hudson_rand m (Fin K) (Fin G) (Fin Ki) (Fin Gi) (Fin al) (Fin crd) = Ret (Fin Ke, Fin Ge) /\
    Ke = iso_K C /\ Ge - G = 15 * (iso_G C - G).
Proof. exact hudson_rand_spec. Qed.
Print Assumptions C14_random_cracks_exact_discrepancy.
Theorem C14_shear_is_orientation_average_refuted :
  forall m K G Ki Gi al, 0 < K /\ 0 < G /\ 0 <= Ki /\ 0 <= Gi /\ 0 < al ->
  forall crd, crd <> 0 -> exists C Ke Ge,
    EM_hudson m (Fin K) (Fin G) (Fin Ki) (Fin Gi) (Fin al) (Fin crd) 1 3 = Ret (finmat C) /\
    EM_hudson_rand m (Fin K) (Fin G) (Fin Ki) (Fin Gi) (Fin al) (Fin crd) = Ret (Fin Ke, Fin Ge) /\
    Ge <> iso_G C.
Proof. exact hudson_rand_wrong. Qed.
Print Assumptions C14_shear_is_orientation_average_refuted.

(** ** C15: three orthogonal sets *)
Theorem C15_orthogonal_sets_add_up :
  forall m K G Ki Gi (al crd : nat -> R),
  (forall a, (a < 3)%nat -> 0 < K /\ 0 < G /\ 0 <= Ki /\ 0 <= Gi /\ 0 < al a) ->
  let lam := K - 2/3 * G in
  exists C0 C,
    utils_write_iso m (Fin K) (Fin G) = Ret (finmat C0) /\
    EM_hudson_ortho m (Fin K) (Fin G) (Fin Ki) (Fin Gi) (Fin (al 0%nat), Fin (al 1%nat), Fin (al 2%nat))
      (Fin (crd 0%nat), Fin (crd 1%nat), Fin (crd 2%nat)) = Ret (finmat C) /\
    forall i j k l, ax4 i j k l ->
    tensor C i j k l = tensor C0 i j k l - sum3 (fun a => crd a / G *
      crack_loss C0 (penny_U1 lam G Gi (al a)) (penny_U3 lam G Ki Gi (al a)) (axis_dir a) i j k l).
Proof. exact hudson_ortho_spec. Qed.
Print Assumptions C15_orthogonal_sets_add_up.
Theorem C15_single_set_is_hudson :
  forall m K G Ki Gi al, 0 < K /\ 0 < G /\ 0 <= Ki /\ 0 <= Gi /\ 0 < al ->
  forall c al', 0 < al' ->
  EM_hudson_ortho m (Fin K) (Fin G) (Fin Ki) (Fin Gi) (Fin al', Fin al', Fin al) (Fin 0, Fin 0, Fin c)
  = EM_hudson m (Fin K) (Fin G) (Fin Ki) (Fin Gi) (Fin al) (Fin c) 1 3 /\
  EM_hudson_ortho m (Fin K) (Fin G) (Fin Ki) (Fin Gi) (Fin al, Fin al', Fin al') (Fin c, Fin 0, Fin 0)
  = EM_hudson m (Fin K) (Fin G) (Fin Ki) (Fin Gi) (Fin al) (Fin c) 1 1.
Proof. exact hudson_ortho_single. Qed.
Print Assumptions C15_single_set_is_hudson.

(** ** C16: crack normals on a cone *)
(** Every entry except C66 is the mean over the cone of the single-set loss. *)
Theorem C16_cone_exact_discrepancy :
  forall m K G Ki Gi al crd deg, 0 < K /\ 0 < G /\ 0 <= Ki /\ 0 <= Gi /\ 0 < al ->
  let lam := K - 2/3 * G in
  let U1 := penny_U1 lam G Gi al in
  let U3 := penny_U3 lam G Ki Gi al in
  let th := deg * PI / 180 in
  exists C0 C,
    utils_write_iso m (Fin K) (Fin G) = Ret (finmat C0) /\
    EM_hudson_cone m (Fin K) (Fin G) (Fin Ki) (Fin Gi) (Fin al) (Fin crd) (Fin deg) = Ret (finmat C) /\
    forall i j k l, ax4 i j k l -> exists v,
    circle_mean (fun ph => crack_loss C0 U1 U3 (polar_dir th ph) i j k l) v /\
    tensor C i j k l = tensor C0 i j k l - crd / G * v
      - (if Nat.eqb (vgt i j) 5 && Nat.eqb (vgt k l) 5 then 3/2 * crd * G * U3 * sin th ^ 4 else 0).
Proof. exact hudson_cone_spec. Qed.
Print Assumptions C16_cone_exact_discrepancy.
Theorem C16_cone_is_transversely_isotropic_refuted :
  forall m K G Ki Gi al, 0 < K /\ 0 < G /\ 0 <= Ki /\ 0 <= Gi /\ 0 < al ->
  forall crd deg, crd <> 0 -> sin (deg * PI / 180) <> 0 -> exists C,
  EM_hudson_cone m (Fin K) (Fin G) (Fin Ki) (Fin Gi) (Fin al) (Fin crd) (Fin deg) = Ret (finmat C) /\
  C 0%nat 0%nat - C 0%nat 1%nat <> 2 * C 5%nat 5%nat /\ ~ transversely_isotropic 2 C.
Proof. exact hudson_cone_wrong. Qed.
Print Assumptions C16_cone_is_transversely_isotropic_refuted.
Theorem C16_cone_zero_angle :
  forall m K G Ki Gi al, 0 < K /\ 0 < G /\ 0 <= Ki /\ 0 <= Gi /\ 0 < al ->
  forall crd,
  EM_hudson_cone m (Fin K) (Fin G) (Fin Ki) (Fin Gi) (Fin al) (Fin crd) (Fin 0)
  = EM_hudson m (Fin K) (Fin G) (Fin Ki) (Fin Gi) (Fin al) (Fin crd) 1 3.
Proof. exact hudson_cone_zero. Qed.
Print Assumptions C16_cone_zero_angle.
Example C16_nonvacuous : sin (90 * PI / 180) <> 0.
Proof. replace (90 * PI / 180) with (PI/2) by field. rewrite sin_PI2. lra. Qed.

(** ** C17: Berryman's self-consistent equations *)
(** Any root (with positive polarisation factors) lies between the phases' moduli. *)
Theorem C17_root_between_phases :
  forall dt Ks Gs (xs ks gs : list R) al al1 (P Q : list R),
  length xs = length ks -> fractions xs ->
  EM_PQ_vectorize dt (Fin Ks) (Fin Gs) (map Fin ks) (map Fin gs) al = Ret ((map Fin P, map Fin Q), al1) ->
  Forall (Rlt 0) P -> Forall (Rlt 0) Q ->
  EM_Berryman_func dt (Fin Ks) (Fin Gs) (map Fin ks) (map Fin gs) (map Fin xs) al = Ret ((Fin 0, Fin 0), al1) ->
  between_some ks Ks /\ between_some gs Gs.
Proof. exact Berryman_between. Qed.
Print Assumptions C17_root_between_phases.
(** Phases (fraction, bulk modulus, aspect ratio) of equal shear modulus: the root is Hill's. *)
Theorem C17_hill_for_equal_shear_moduli :
  forall dt G Ks (L : list (R * R * R)), 0 < G -> 0 < Ks ->
  Forall (fun p => 0 <= fst (fst p)) L ->
  Forall (fun p => 0 <= snd (fst p)) L -> Forall (fun p => 0 < snd p) L -> sumf (fun p => fst (fst p)) L = 1 ->
  exists res al',
  EM_Berryman_func dt (Fin Ks) (Fin G) (map (fun p => Fin (snd (fst p))) L) (map (fun _ => Fin G) L)
    (map (fun p => Fin (fst (fst p))) L) (map snd L) = Ret ((Fin res, Fin 0), al') /\
  (res = 0 <-> 1 / (Ks + 4/3*G) = sumf (fun p => fst (fst p) / (snd (fst p) + 4/3*G)) L).
Proof. exact Berryman_Hill. Qed.
Print Assumptions C17_hill_for_equal_shear_moduli.
Theorem C17_single_material_is_a_root :
  forall dt K G (L : list (R * R)), 0 < K -> 0 < G -> Forall (fun p => 0 < snd p) L -> exists al',
  EM_Berryman_func dt (Fin K) (Fin G) (map (fun _ => Fin K) L) (map (fun _ => Fin G) L) (map (fun p => Fin (fst p)) L) (map snd L)
  = Ret ((Fin 0, Fin 0), al').
Proof. exact Berryman_same. Qed.
Print Assumptions C17_single_material_is_a_root.
Example C17_nonvacuous :
  let L := [(0.3, 37, 1); (0.7, 21, 0.1)] in
  Forall (fun p => 0 <= fst (fst p)) L /\ Forall (fun p => 0 <= snd (fst p)) L /\ Forall (fun p => 0 < snd p) L /\
  sumf (fun p => fst (fst p)) L = 1.
Proof. cbv zeta. repeat split; try (repeat constructor; cbn; dec; lra). Qed.

(** ** C18: the caller's aspect-ratio array *)
(** It comes back unchanged exactly when it contains no 1; a 1 never survives. *)
Theorem C18_caller_array_overwritten :
  forall dt Km Gm Ki Gi al r al',
  EM_PQ_vectorize dt Km Gm Ki Gi al = Ret (r, al') -> (al' = al <-> ~ In 1 al) /\ ~ In 1 al'.
Proof. exact PQ_vec_mutates. Qed.
Print Assumptions C18_caller_array_overwritten.
Theorem C18_caller_array_unchanged_refuted :
  exists r al',
  EM_PQ_vectorize DFloat (Fin 37) (Fin 44) [Fin 37] [Fin 44] [1] = Ret (r, al') /\ al' <> [1].
Proof. exact PQ_vec_example. Qed.
Print Assumptions C18_caller_array_unchanged_refuted.

(** ** C19: inclusions with the host's shear modulus *)
Theorem C19_equal_shear_inclusion :
  forall m Km Gm Ki, 0 < Km -> 0 < Gm -> 0 <= Ki -> forall al, 0 < al ->
  EM_PQ m (Fin Km) (Fin Gm) (Fin Ki) (Fin Gm) al = Ret (Fin ((Km + 4/3*Gm) / (Ki + 4/3*Gm)), Fin 1).
Proof. exact PQ_equal_G. Qed.
Print Assumptions C19_equal_shear_inclusion.
Theorem C19_identical_inclusion :
  forall m K G al t, 0 < K -> 0 < G -> 0 < al -> t <> 1 ->
  EM_PQ m (Fin K) (Fin G) (Fin K) (Fin G) al = Ret (Fin 1, Fin 1) /\
  EM_DEM m (Fin K) (Fin G) (Fin t) (Fin G, Fin K, al) = Ret (Fin 0, Fin 0).
Proof.
  intros m K G al t HK HG Ha Ht. split.
  - rewrite PQ_equal_G by lra. reteq. field. lra.
  - rewrite (DEM_equal_G m G K al) by lra. reteq. field. lra.
Qed.
Print Assumptions C19_identical_inclusion.
(** The differential scheme with equal shear moduli: Hill's formula is the solution. *)
Theorem C19_dem_equal_shear_solution :
  forall m G Km Ki al, 0 < G -> 0 < Km -> 0 <= Ki -> 0 < al ->
  exists Kt : R -> R, Kt 0 = Km /\ Kt 1 = Ki /\
  (forall t, 0 <= t < 1 -> 0 < Kt t /\ 1 / (Kt t + 4/3*G) = (1 - t) / (Km + 4/3*G) + t / (Ki + 4/3*G) /\
   exists d, derivable_pt_lim Kt t d /\
     EM_DEM m (Fin (Kt t)) (Fin G) (Fin t) (Fin G, Fin Ki, al) = Ret (Fin d, Fin 0)).
Proof.
  intros m G Km Ki al HG HKm HKi Hal. exists (demK G Km Ki).
  destruct (demK_ends G Km Ki HG HKm HKi) as (E0 & E1). split; [exact E0|]. split; [exact E1|].
  intros t Ht. split; [apply demK_pos; auto|]. split; [|apply demK_ode; auto].
  assert (D := demK_den G Km Ki HG HKm HKi t Ht). unfold demK.
  set (d := (1 - t) / (Km + 4/3*G) + t / (Ki + 4/3*G)) in *.
  replace (1 / d - 4/3*G + 4/3*G) with (1 / d) by ring. field. lra.
Qed.
Print Assumptions C19_dem_equal_shear_solution.

(** ** C20: spherical pores *)
Theorem C20_swiss_cheese :
  forall m Ks Gs, 0 < Ks -> 0 < Gs -> forall phi, 0 <= phi -> exists K G P Q,
  EM_Swiss_cheese m (Fin Ks) (Fin Gs) (Fin phi) = Ret (Fin K, Fin G) /\
  EM_PQ m (Fin Ks) (Fin Gs) (Fin 0) (Fin 0) 1 = Ret (Fin P, Fin Q) /\
  0 < K <= Ks /\ 0 < G <= Gs /\ 1 / K = 1 / Ks + phi * P / Ks /\ 1 / G = 1 / Gs + phi * Q / Gs.
Proof. exact Swiss_spec. Qed.
Print Assumptions C20_swiss_cheese.
Theorem C20_swiss_cheese_decreasing :
  forall m Ks Gs, 0 < Ks -> 0 < Gs -> forall p q, 0 <= p -> p < q -> exists K G K' G',
  EM_Swiss_cheese m (Fin Ks) (Fin Gs) (Fin p) = Ret (Fin K, Fin G) /\
  EM_Swiss_cheese m (Fin Ks) (Fin Gs) (Fin q) = Ret (Fin K', Fin G') /\ K' < K /\ G' < G.
Proof. exact Swiss_strict. Qed.
Print Assumptions C20_swiss_cheese_decreasing.
Theorem C20_one_iteration_against_swiss_cheese :
  forall m Ks Gs, 0 < Ks -> 0 < Gs -> forall phi, 0 <= phi -> exists K G G',
  EM_Swiss_cheese m (Fin Ks) (Fin Gs) (Fin phi) = Ret (Fin K, Fin G) /\
  EM_SC m (Fin phi) (Fin Ks) (Fin Gs) 1 = Ret (Fin K, Fin G') /\ G' <= G.
Proof. exact Swiss_SC1. Qed.
Print Assumptions C20_one_iteration_against_swiss_cheese.
(** The iteration, for every iteration count: monotone, positive, convergent; below one half
    porosity to the largest solution of the self-consistent equations, otherwise to zero. *)
Theorem C20_sc_iteration :
  forall m Ks Gs, 0 < Ks -> 0 < Gs -> exists k g : R -> nat -> R,
  forall phi, 0 <= phi ->
  (forall n, EM_SC m (Fin phi) (Fin Ks) (Fin Gs) (Z.of_nat n) = Ret (Fin (k phi n), Fin (g phi n))) /\
  k phi 0%nat = Ks /\ g phi 0%nat = Gs /\
  (forall n, 1 / k phi (S n) = 1 / Ks + (1 / k phi n + 3 / (4 * g phi n)) * phi /\
     1 / g phi (S n) = 1 / Gs + (15 * k phi (S n) + 20 * g phi n) / (9 * k phi (S n) + 8 * g phi n) * phi / g phi n) /\
  (forall n, 0 < k phi n <= Ks /\ 0 < g phi n <= Gs) /\
  (forall n n', (n <= n')%nat -> k phi n' <= k phi n /\ g phi n' <= g phi n) /\
  (forall phi' n, 0 <= phi' <= phi -> k phi n <= k phi' n /\ g phi n <= g phi' n) /\
  (phi = 0 -> forall n, k phi n = Ks /\ g phi n = Gs) /\
  (phi < 1/2 -> exists a b, Un_cv (k phi) a /\ Un_cv (g phi) b /\ 0 < a <= Ks /\ 0 < b <= Gs /\
     1 / a = 1 / Ks + (1 / a + 3 / (4 * b)) * phi /\
     1 / b = 1 / Gs + (15 * a + 20 * b) / (9 * a + 8 * b) * phi / b /\
     forall a' b', 0 < a' -> 0 < b' -> 1 / a' = 1 / Ks + (1 / a' + 3 / (4 * b')) * phi ->
       1 / b' = 1 / Gs + (15 * a' + 20 * b') / (9 * a' + 8 * b') * phi / b' -> a' <= a /\ b' <= b) /\
  (1/2 <= phi -> Un_cv (k phi) 0 /\ Un_cv (g phi) 0).
Proof.
  intros m Ks Gs HK HG. exists (fun p n => fst (sc Ks Gs p n)), (fun p n => snd (sc Ks Gs p n)).
  intros phi Hp. split; [intros n; apply SC_eval; auto|].
  split; [reflexivity|]. split; [reflexivity|]. split; [intros n; apply sc_recurrence; auto|].
  split; [intros n; destruct (sc_pos Ks Gs HK HG phi n Hp), (sc_le_start Ks Gs HK HG phi n Hp); auto|].
  split; [intros n n' Hn; apply sc_decr_le; auto|].
  split; [intros phi' n (A & B); apply sc_phi; auto|].
  split; [intros -> n; rewrite sc_zero; auto|].
  split; [apply (sc_limit_low Ks Gs phi HK HG Hp)|apply (sc_limit_high Ks Gs phi HK HG Hp)].
Qed.
Print Assumptions C20_sc_iteration.

(** ** C21: cracked rock *)
Theorem C21_dilute_cracks :
  forall m K G, 0 < K -> 0 < G -> exists kd gd ko go : R -> R,
  (forall c, 0 <= c -> EM_Dilute_crack m (Fin K) (Fin G) (Fin c) = Ret (Fin (kd c), Fin (gd c))) /\
  (forall c, 0 <= c <= 9/16 -> EM_OConnell_Budiansky m (Fin K) (Fin G) (Fin c) = Ret (Fin (ko c), Fin (go c))) /\
  kd 0 = K /\ gd 0 = G /\ ko 0 = K /\ go 0 = G /\ ko (9/16) = 0 /\ go (9/16) = 0 /\
  (forall p q, 0 <= p -> p < q -> 0 < kd q < kd p /\ 0 < gd q < gd p) /\
  (forall p q, 0 <= p -> p < q -> q <= 9/16 -> ko q < ko p /\ go q < go p) /\
  (* agreement to first order in crack density *)
  exists k g, k < 0 /\ g < 0 /\ derivable_pt_lim kd 0 k /\ derivable_pt_lim ko 0 k /\
    derivable_pt_lim gd 0 g /\ derivable_pt_lim go 0 g.
Proof.
  intros m K G HK HG. exists (dck K G), (dcg K G), (obk K G), (obg K G).
  split; [intros; apply Dilute_eval; auto|]. split; [intros; apply OB_eval; auto|].
  destruct (Dilute_0 K G HK HG) as (A & B). destruct (OB_zero K G HK HG) as (C & D & E & F).
  do 6 (split; [assumption|]).
  split; [intros; apply Dilute_facts; auto|]. split; [intros; apply OB_decr; auto|].
  exact (first_order K G HK HG).
Qed.
Print Assumptions C21_dilute_cracks.

(** ** C22: cracks with fluid *)
(** Whatever root [fsolve] returns, the Poisson ratio of the result is the [nu_eff] of the root
    (the first of the two equations is exactly this consistency). *)
Theorem C22_fluid_root_is_consistent :
  forall m K G Kf c al fsolve, 0 < K -> 0 < G -> al <> 0 -> forall nu D, -1 < nu < 1/2 ->
  let n0 := (3*K - 2*G) / (2 * (3*K + G)) in
  D * (1 + 3 * n0) * (2 - nu) - 2 * (1 - 2 * n0) <> 0 ->
  let res := fun a b => EM_OC_R_funcs m a b (Fin c) (Fin n0) (Fin (Kf / al / K)) in
  fsolve res (Fin 0.2, Fin 0.9) = (Fin nu, Fin D) -> (exists e2, res (Fin nu) (Fin D) = Ret (Fin 0, Fin e2)) ->
  exists Ks Gs, EM_OConnell_Budiansky_fl m fsolve (Fin K) (Fin G) (Fin Kf) (Fin c) (Fin al) = Ret (Fin Ks, Fin Gs) /\
    Ks = K * (1 - 16 * (1 - nu^2) * c * D / (9 * (1 - 2 * nu))) /\
    Gs = G * (1 - 32 / 45 * (1 - nu) * (D + 3 / (2 - nu)) * c) /\
    3 * Ks * (1 - 2 * nu) = 2 * Gs * (1 + nu).
Proof.
  intros m K G Kf c al fsolve HK HG Ha nu D Hn n0 N res E (e2 & R).
  exists (fk K c nu D), (fg G c nu D). split; [apply OCfl_eval; auto|].
  split; [reflexivity|]. split; [reflexivity|].
  unfold res in R. assert (E2 := OC_funcs_eval m K G Kf c al HK HG nu D Hn N).
  assert (Q : oceq1 K G c nu D = 0) by (change n0 with (pr K G) in R; rewrite E2 in R; injection R; auto).
  apply (OC_eq1 K G c HK HG nu D Hn N Q).
Qed.
Print Assumptions C22_fluid_root_is_consistent.
(** Dry cracks: D = 1 solves the second equation, and with it the saturated formulas are the
    dry ones at the same effective Poisson ratio; no cracks: the background. *)
Theorem C22_dry_and_uncracked_limits :
  forall m K G c al fsolve, 0 < K -> 0 < G -> al <> 0 -> forall nu, -1 < nu < 1/2 ->
  let n0 := (3*K - 2*G) / (2 * (3*K + G)) in
  let res := fun a b => EM_OC_R_funcs m a b (Fin c) (Fin n0) (Fin (0 / al / K)) in
  ((1 + 3 * n0) * (2 - nu) - 2 * (1 - 2 * n0) <> 0 -> exists e1, res (Fin nu) (Fin 1) = Ret (Fin e1, Fin 0)) /\
  (fsolve res (Fin 0.2, Fin 0.9) = (Fin nu, Fin 1) -> 0 <= c <= 9/16 -> nu = n0 * (1 - 16 * c / 9) ->
   EM_OConnell_Budiansky_fl m fsolve (Fin K) (Fin G) (Fin 0) (Fin c) (Fin al) = EM_OConnell_Budiansky m (Fin K) (Fin G) (Fin c)).
Proof.
  intros m K G c al fsolve HK HG Ha nu Hn n0 res. split.
  - intros N. unfold res. change n0 with (pr K G) in *.
    assert (N' : 1 * (1 + 3 * pr K G) * (2 - nu) - 2 * (1 - 2 * pr K G) <> 0) by (rewrite Rmult_1_l; exact N).
    rewrite (OC_funcs_eval m K G 0 c al HK HG nu 1 Hn N').
    eexists. f_equal. f_equal. f_equal. apply (OC_dry_root K G 0 c al HK HG Ha nu 1); reflexivity.
  - intros E Hc Q. rewrite (OB_eval m K G HK HG c Hc).
    rewrite (OCfl_eval m K G 0 c al fsolve HK HG Ha nu 1 Hn E).
    destruct (OC_dry_formula K G c nu 1 Hn eq_refl Q) as (-> & ->). reflexivity.
Qed.
Print Assumptions C22_dry_and_uncracked_limits.
Theorem C22_no_cracks :
  forall m K G Kf al fsolve, 0 < K -> 0 < G -> al <> 0 -> forall nu D, -1 < nu < 1/2 ->
  let n0 := (3*K - 2*G) / (2 * (3*K + G)) in
  fsolve (fun a b => EM_OC_R_funcs m a b (Fin 0) (Fin n0) (Fin (Kf / al / K))) (Fin 0.2, Fin 0.9) = (Fin nu, Fin D) ->
  EM_OConnell_Budiansky_fl m fsolve (Fin K) (Fin G) (Fin Kf) (Fin 0) (Fin al) = Ret (Fin K, Fin G).
Proof.
  intros m K G Kf al fsolve HK HG Ha nu D Hn n0 E. rewrite (OCfl_eval m K G Kf 0 al fsolve HK HG Ha nu D Hn E).
  destruct (OC_zero K G 0 nu D Hn eq_refl) as (-> & ->). reflexivity.
Qed.
Print Assumptions C22_no_cracks.

(** ** C23: dilute and iterated spherical inclusions *)
(** [SC_dilute] returns moduli divided by the matrix moduli; times the matrix they are the
    dilute estimates built on Eshelby's factors for a sphere. *)
Theorem C23_dilute :
  forall m Km Gm Ki Gi, 0 < Km -> 0 < Gm -> 0 <= Ki -> 0 <= Gi -> Km <> Ki -> Gm <> Gi -> exists P Q,
  EM_PQ m (Fin Km) (Fin Gm) (Fin Ki) (Fin Gi) 1 = Ret (Fin P, Fin Q) /\
  (forall f, exists K G, EM_SC_dilute m (Fin Km) (Fin Gm) (Fin Ki) (Fin Gi) (Fin f) "strain" = Ret (Fin K, Fin G) /\
     Km * K = Km + f * (Ki - Km) * P /\ Gm * G = Gm + f * (Gi - Gm) * Q) /\
  (forall f, 0 <= f -> Ki < Km -> Gi < Gm ->
     exists K G, EM_SC_dilute m (Fin Km) (Fin Gm) (Fin Ki) (Fin Gi) (Fin f) "stress" = Ret (Fin K, Fin G) /\
     1 / (Km * K) = 1 / Km + f * (1 - Ki / Km) * P / Km /\ 1 / (Gm * G) = 1 / Gm + f * (1 - Gi / Gm) * Q / Gm).
Proof.
  intros m Km Gm Ki Gi HK HG HKi HGi NK NG. exists (sp Km Gm Ki), (sq Km Gm Gi).
  split; [apply PQ_sphere; auto|]. split.
  - intros f. rewrite SC_dilute_strain by auto. do 2 eexists. split; [reflexivity|]. split; field; lra.
  - intros f Hf L1 L2.
    assert (P1 : 0 < sp Km Gm Ki) by (unfold sp; apply Rdiv_lt_0_compat; lra).
    assert (X := xi_pos Km Gm HK HG). assert (P2 : 0 < sq Km Gm Gi) by (unfold sq; apply Rdiv_lt_0_compat; lra).
    assert (0 <= f * ((Km - Ki) * sp Km Gm Ki / Km)).
    { apply Rmult_le_pos; [lra|]. left. apply Rdiv_lt_0_compat; [|lra]. apply Rmult_lt_0_compat; lra. }
    assert (0 <= f * ((Gm - Gi) * sq Km Gm Gi / Gm)).
    { apply Rmult_le_pos; [lra|]. left. apply Rdiv_lt_0_compat; [|lra]. apply Rmult_lt_0_compat; lra. }
    rewrite SC_dilute_stress by (auto; lra). do 2 eexists. split; [reflexivity|].
    set (a := f * ((Km - Ki) * sp Km Gm Ki / Km)) in *. set (b := f * ((Gm - Gi) * sq Km Gm Gi / Gm)) in *.
    split.
    + transitivity ((1 + a) / Km); [field; lra|]. unfold a. field. lra.
    + transitivity ((1 + b) / Gm); [field; lra|]. unfold b. field. lra.
Qed.
Print Assumptions C23_dilute.
(** The docstring's "effective moduli" is false: with no inclusions the result is (1, 1). *)
Theorem C23_dilute_returns_moduli_refuted :
  forall m Km Gm Ki Gi, 0 < Km -> 0 < Gm -> 0 <= Ki -> 0 <= Gi -> Km <> Ki -> Gm <> Gi ->
  EM_SC_dilute m (Fin Km) (Fin Gm) (Fin Ki) (Fin Gi) (Fin 0) "strain" = Ret (Fin 1, Fin 1).
Proof.
  intros m Km Gm Ki Gi HK HG HKi HGi NK NG. rewrite SC_dilute_strain by auto. reteq; ring.
Qed.
Print Assumptions C23_dilute_returns_moduli_refuted.
Theorem C23_dilute_unknown_mode :
  forall m Km Gm Ki Gi, 0 < Km -> 0 < Gm -> forall f mode_, mode_ <> "stress"%string -> mode_ <> "strain"%string ->
  EM_SC_dilute m (Fin Km) (Fin Gm) (Fin Ki) (Fin Gi) (Fin f) mode_ = Raise UnboundLocalError.
Proof. intros m Km Gm Ki Gi HK HG. exact (SC_dilute_bad m Km Gm Ki Gi HK HG). Qed.
Print Assumptions C23_dilute_unknown_mode.
(** One pass of [SC_flex] from the state (K, G), and what a state left unchanged satisfies: the
    two-phase self-consistent equations. *)
Theorem C23_flex_pass_and_fixed_point :
  forall m K G Ki Gi, 0 < K -> 0 < G -> 0 <= Ki -> 0 <= Gi -> K <> Ki -> G <> Gi ->
  forall f K0 G0, 0 < K0 -> 0 < G0 -> exists P Q P0 Q0 K' G',
  EM_PQ m (Fin K) (Fin G) (Fin Ki) (Fin Gi) 1 = Ret (Fin P, Fin Q) /\
  EM_PQ m (Fin K) (Fin G) (Fin K0) (Fin G0) 1 = Ret (Fin P0, Fin Q0) /\
  EM_SC_flex_step m (Fin f) (Fin K0) (Fin Ki) (Fin G0) (Fin Gi) (Fin K) (Fin G) = Ret (Fin K', Fin G') /\
  K' = K0 + f * (Ki - K0) * P /\ G' = G0 + f * (Gi - G0) * Q /\
  (K' = K -> G' = G -> (1 - f) * (K0 - K) * P0 + f * (Ki - K) * P = 0 /\ (1 - f) * (G0 - G) * Q0 + f * (Gi - G) * Q = 0).
Proof.
  intros m K G Ki Gi HK HG HKi HGi NK NG f K0 G0 H0 H1.
  exists (sp K G Ki), (sq K G Gi), (sp K G K0), (sq K G G0). do 2 eexists.
  split; [apply PQ_sphere; auto|]. split; [apply PQ_sphere; lra|].
  split; [apply flex_step; lra|]. split; [reflexivity|]. split; [reflexivity|].
  intros E1 E2. apply flex_fixed; auto; lra.
Qed.
Print Assumptions C23_flex_pass_and_fixed_point.
(** No inclusions: the matrix after one or more passes; with zero passes G is returned as Km. *)
Theorem C23_flex_no_inclusions :
  forall m Km Ki Gm Gi n, 0 < Km -> 0 < Gm -> 0 <= Ki -> 0 <= Gi -> Km <> Ki -> Gm <> Gi -> Km <> Gi ->
  EM_SC_flex m (Fin 0) (Z.of_nat (S n)) (Fin Km) (Fin Ki) (Fin Gm) (Fin Gi) = Ret (Fin Km, Fin Gm) /\
  EM_SC_flex m (Fin 0) 0 (Fin Km) (Fin Ki) (Fin Gm) (Fin Gi) = Ret (Fin Km, Fin Km).
Proof. exact flex_zero. Qed.
Print Assumptions C23_flex_no_inclusions.

(** ** C24: Mori-Tanaka *)
Theorem C24_mt_is_walpole :
  forall m f Km Gm K1 G1 K2 G2, 0 < Km -> 0 < Gm -> 0 <= K1 -> 0 <= K2 -> 0 <= G1 -> 0 <= G2 -> 0 <= f <= 1 ->
  EM_MT_average m (Fin f) (Fin Km) (Fin Gm) (Fin K1) (Fin G1) (Fin K2) (Fin G2) =
  Ret (Fin (walpole (zK Gm) f K1 K2), Fin (walpole (zG Km Gm) f G1 G2)).
Proof. exact MT_walpole. Qed.
Print Assumptions C24_mt_is_walpole.
Theorem C24_mt_is_hashin_shtrikman :
  forall m f K1 K2 G1 G2, 0 < K1 -> 0 < K2 -> 0 < G1 -> 0 < G2 -> 0 <= f <= 1 -> K1 <> K2 -> G1 <> G2 ->
  EM_MT_average m (Fin f) (Fin K1) (Fin G1) (Fin K1) (Fin G1) (Fin K2) (Fin G2) =
  EM_HS m (Fin f) (Fin K1) (Fin K2) (Fin G1) (Fin G2) "upper" /\
  EM_MT_average m (Fin f) (Fin K2) (Fin G2) (Fin K1) (Fin G1) (Fin K2) (Fin G2) =
  EM_HS m (Fin f) (Fin K1) (Fin K2) (Fin G1) (Fin G2) "lower".
Proof. exact MT_is_HS. Qed.
Print Assumptions C24_mt_is_hashin_shtrikman.
Theorem C24_mt_between_phases :
  forall m f Km Gm K1 G1 K2 G2, 0 < Km -> 0 < Gm -> 0 <= K2 -> K2 <= K1 -> 0 <= G2 -> G2 <= G1 -> 0 <= f <= 1 ->
  exists K G, EM_MT_average m (Fin f) (Fin Km) (Fin Gm) (Fin K1) (Fin G1) (Fin K2) (Fin G2) = Ret (Fin K, Fin G) /\
    K2 <= K <= K1 /\ G2 <= G <= G1 /\ K <= f * K1 + (1 - f) * K2 /\ G <= f * G1 + (1 - f) * G2.
Proof. exact MT_facts. Qed.
Print Assumptions C24_mt_between_phases.
Theorem C24_mt_pure_phases :
  forall m Km Gm K1 G1 K2 G2, 0 < Km -> 0 < Gm -> 0 <= K1 -> 0 <= K2 -> 0 <= G1 -> 0 <= G2 ->
  EM_MT_average m (Fin 1) (Fin Km) (Fin Gm) (Fin K1) (Fin G1) (Fin K2) (Fin G2) = Ret (Fin K1, Fin G1) /\
  EM_MT_average m (Fin 0) (Fin Km) (Fin Gm) (Fin K1) (Fin G1) (Fin K2) (Fin G2) = Ret (Fin K2, Fin G2).
Proof.
  intros m Km Gm K1 G1 K2 G2 HK HG H1 H2 H3 H4.
  assert (P := zG_pos Km Gm HK HG). assert (Q := zK_pos Gm HG).
  rewrite !MT_walpole by lra. rewrite !walpole_1, !walpole_0 by lra. auto.
Qed.
Print Assumptions C24_mt_pure_phases.
Example C24_nonvacuous : 0 < 37 /\ 0 < 44 /\ 0 <= 2.2 /\ 2.2 <= 37 /\ 0 <= 0 /\ 0 <= 44 /\ 0 <= 0.3 <= 1.
Proof. dec; lra. Qed.

(** ** C65: an empty pore amplifies strain (P >= 1); refuted for prolate pores *)
Theorem C65_empty_prolate_pore_amplifies_refuted :
  forall m, exists P Q,
  EM_PQ m (Fin 4) (Fin 3) (Fin 0) (Fin 0) (221/220) = Ret (Fin P, Fin Q) /\ 0 < P < 1.
Proof. exact PQ_prolate_wit. Qed.
Print Assumptions C65_empty_prolate_pore_amplifies_refuted.
Theorem C65_empty_sphere_amplifies :
  forall m K G, 0 < K -> 0 < G -> exists P Q,
  EM_PQ m (Fin K) (Fin G) (Fin 0) (Fin 0) 1 = Ret (Fin P, Fin Q) /\ 1 < P /\ 1 < Q.
Proof.
  intros m K G HK HG. destruct (Swiss_spec m K G HK HG 1 ltac:(lra)) as (k & g & P & Q & E1 & E2 & _).
  exists P, Q. split; [exact E2|]. rewrite PQ_sphere in E2 by lra. injection E2 as <- <-.
  assert (X := xi_pos K G HK HG). unfold sp, sq. split.
  - apply Rmult_lt_reg_r with (0 + 4/3*G); [lra|]. unfold Rdiv at 2. rewrite Rmult_assoc, Rinv_l by lra. lra.
  - apply Rmult_lt_reg_r with (0 + xi K G); [lra|]. unfold Rdiv. rewrite Rmult_assoc, Rinv_l by lra. lra.
Qed.
Print Assumptions C65_empty_sphere_amplifies.
